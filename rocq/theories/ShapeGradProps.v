(** C40: Transpose. C42: Concat and Repeat. C59: Slice and Unconcat. C60: Sum and the
    gradient of Broadcast. Entries come from any commutative ring. *)
From Coq Require Import List ZArith Bool Lia Ring Sorted.
From Verif Require Import Sums BroadcastModel BroadcastSpec BroadcastProofs ShapeGradModel ShapeGradSpec ShapeGradProofs ShapeGradSlice ShapeGradConcat ShapeGradSum ShapeGradRepeat.
Import ListNotations.
Local Open Scope Z_scope.

Lemma app_inv_len (p p' q q' : list Z) : length p = length p' -> p ++ q = p' ++ q' -> p = p' /\ q = q'.
Proof.
  revert p'. induction p as [|a p IH]; intros [|b p'] L E; try discriminate; cbn [app] in E; [auto|]. injection E as -> E. destruct (IH p' ltac:(cbn [length] in L; lia) E) as [-> ->]. auto.
Qed.
Section Props.
Context {A : Type} {CR : CRing A}.
Add Ring Aring2 : (@cr_th A CR).
Notation tens := (@tens A).

(** ** C40 *)
(** The axes meant by a call: the given ones, or all in reverse order. *)
Definition meant (x : tens) (axes : list Z) : list Z :=
  match axes with [] => rev (map Z.of_nat (seq 0 (length (shp x)))) | _ => axes end.
Lemma transposeApi_meant (x : tens) axes : shp x <> [] -> length (meant x axes) = length (shp x) ->
  transposeApi x axes = if eqShape (meant x axes) (iota (length (shp x))) then Ok x else transposeNode x (meant x axes).
Proof.
  intros HN HL. unfold transposeApi. assert (L0 : length (shp x) <> 0%nat) by (destruct (shp x); [contradiction|discriminate]).
  assert (E : (if Nat.eqb (length axes) 0 then rev (iota (length (shp x))) else axes) = meant x axes) by (unfold meant; destruct axes; reflexivity).
  assert (C : negb (Nat.eqb (length axes) 0) && negb (Nat.eqb (length axes) (length (shp x))) = false).
  { destruct axes as [|a axes]; [reflexivity|]. cbn [meant] in HL. rewrite HL, Nat.eqb_refl. apply andb_false_r. }
  rewrite C, E. destruct (meant x axes) as [|m l] eqn:EM; [cbn [length] in HL; lia|]. rewrite <- EM in *. rewrite HL. reflexivity.
Qed.
(** What Transpose computes: for any axes that are a permutation, the coordinates are
    permuted by them. *)
Theorem C40_transpose : forall (x : tens) axes, shp x <> [] -> is_perm (meant x axes) (length (shp x)) ->
  exists y, transposeApi x axes = Ok y /\ shp y = gather (meant x axes) (shp x) /\
    forall idx, inside (shp x) idx -> at_ y (gather (meant x axes) idx) = at_ x idx.
Proof.
  intros x axes HN P. pose proof P as [HL _]. rewrite (transposeApi_meant x axes HN HL).
  assert (L0 : length (shp x) <> 0%nat) by (destruct (shp x); [contradiction|discriminate]).
  destruct (eqShape _ _) eqn:K.
  - apply eqShape_iff in K. exists x. rewrite K in *.
    assert (G : forall l, length l = length (shp x) -> gather (iota (length (shp x))) l = l).
    { intros l Ll. apply list_eq; [rewrite len_gather, len_iota; lia|]. intros i Hi. rewrite len_gather in Hi. rewrite nth_gather by exact Hi. rewrite len_iota in Hi. rewrite nth_iota by exact Hi. rewrite Nat2Z.id. reflexivity. }
    split; [reflexivity|]. split; [symmetry; apply G; reflexivity|]. intros idx Hi. rewrite G by apply (inside_len _ _ Hi). reflexivity.
  - assert (NI : meant x axes <> iota (length (shp x))) by (intro E; rewrite E, eqShape_refl in K; discriminate).
    destruct (transpose_all x (meant x axes) (length (shp x)) eq_refl L0 P NI) as [y [Ey [Sy [Vy _]]]]. exists y. auto.
Qed.
(** Two transpositions in a row are the one with the composed axes. *)
Theorem C40_compose : forall (x y z : tens) p q, shp x <> [] -> is_perm p (length (shp x)) -> is_perm q (length (shp x)) ->
  transposeApi x p = Ok y -> transposeApi y q = Ok z -> exists w, transposeApi x (gather q p) = Ok w /\ same w z.
Proof.
  intros x y z p q HN P Q Ey Ez. assert (L0 : length (shp x) <> 0%nat) by (destruct (shp x); [contradiction|discriminate]).
  assert (M : forall (t : tens) r, is_perm r (length (shp x)) -> meant t r = r) by (intros t r [K _]; destruct r; [cbn [length] in K; congruence|reflexivity]).
  destruct (C40_transpose x p HN) as [y' [Ey' [Sy Vy]]]; [rewrite M; exact P|]. rewrite M in Sy, Vy by exact P. rewrite Ey in Ey'. injection Ey' as <-.
  pose proof P as [PL [PN PF]]. pose proof Q as [QL [QN QF]].
  assert (Ly : length (shp y) = length (shp x)) by (rewrite Sy, len_gather; exact PL).
  assert (NY : shp y <> []) by (intro K; rewrite K in Ly; cbn [length] in Ly; lia).
  destruct (C40_transpose y q NY) as [z' [Ez' [Sz Vz]]]; [rewrite M by exact Q; rewrite Ly; exact Q|]. rewrite M in Sz, Vz by exact Q. rewrite Ez in Ez'. injection Ez' as <-.
  assert (R : is_perm (gather q p) (length (shp x))).
  { split; [rewrite len_gather; exact QL|]. rewrite Forall_forall in QF, PF. split.
    - apply (NoDup_nth _ 0). rewrite len_gather. intros i j Hi Hj E. rewrite !nth_gather in E by assumption. pose proof (QF _ (nth_In q 0 Hi)) as Bi. pose proof (QF _ (nth_In q 0 Hj)) as Bj. cbn beta in *.
      assert (E2 : Z.to_nat (nth i q 0) = Z.to_nat (nth j q 0)) by (apply (proj1 (NoDup_nth p 0) PN); [lia|lia|exact E]).
      apply (proj1 (NoDup_nth q 0) QN); [assumption|assumption|lia].
    - apply Forall_forall. intros a Ha. apply in_map_iff in Ha. destruct Ha as [b [<- Hb]]. apply PF, nth_In. specialize (QF b Hb). cbn beta in QF. lia. }
  assert (GG : forall l, length l = length (shp x) -> gather (gather q p) l = gather q (gather p l)).
  { intros l Ll. unfold gather at 1 2 3. rewrite map_map. apply map_ext_in. intros a Ha. rewrite Forall_forall in QF. specialize (QF a Ha). cbn beta in QF. symmetry. apply nth_gather. lia. }
  destruct (C40_transpose x (gather q p) HN) as [w [Ew [Sw Vw]]]; [rewrite M; exact R|]. rewrite M in Sw, Vw by exact R. exists w. split; [exact Ew|]. split; [rewrite Sw, Sz, Sy; apply GG; reflexivity|].
  intros idx Hi. apply coords_in in Hi. rewrite Sw in Hi. pose proof (inside_len _ _ Hi) as Li. rewrite len_gather in Li. pose proof R as [RL _]. rewrite RL in Li.
  pose proof (inside_scatter _ _ _ _ R eq_refl Hi) as Hi0. set (i0 := scatter (gather q p) idx (repeat 0 (length (shp x)))) in *.
  assert (EI : idx = gather (gather q p) i0) by (symmetry; apply (gather_scatter _ _ _ R Li)). rewrite EI at 1. rewrite Vw by exact Hi0. pose proof (inside_len _ _ Hi0) as L1.
  rewrite EI, GG by exact L1. rewrite Vz by (rewrite Sy; apply (inside_gather p _ _ _ P eq_refl Hi0)). symmetry. apply Vy, Hi0.
Qed.
(** The pattern of the gradient is the inverse permutation and transposing back with it
    gives the input. *)
Theorem C40_round_trip : forall (x y : tens) p, shp x <> [] -> is_perm p (length (shp x)) -> transposeApi x p = Ok y ->
  is_perm (newPattern p) (length (shp x)) /\
  (forall k, (k < length p)%nat -> nth (Z.to_nat (nth k p 0)) (newPattern p) 0 = Z.of_nat k) /\
  exists b, transposeApi y (newPattern p) = Ok b /\ same b x.
Proof.
  intros x y p HN P Ey. assert (L0 : length (shp x) <> 0%nat) by (destruct (shp x); [contradiction|discriminate]). pose proof P as [PL _].
  destruct (newPattern_spec p _ P) as [Q G]. split; [exact Q|]. split; [intros k Hk; rewrite <- nth_gather, G by exact Hk; apply nth_iota; lia|].
  assert (M : forall (t : tens) r, is_perm r (length (shp x)) -> meant t r = r) by (intros t r [K _]; destruct r; [cbn [length] in K; congruence|reflexivity]).
  pose proof (transposeApi_meant x p HN) as EA. rewrite M in EA by exact P. specialize (EA PL). rewrite EA in Ey. destruct (eqShape p _) eqn:K.
  - apply eqShape_iff in K. injection Ey as <-. exists x. split; [|split; reflexivity].
    assert (E : newPattern p = iota (length (shp x))).
    { destruct Q as [QL _]. apply list_eq; [rewrite len_iota; exact QL|]. intros i Hi. rewrite QL in Hi. rewrite nth_iota by exact Hi. pose proof (nth_gather p (newPattern p) i ltac:(lia)) as N. rewrite G, K in N. rewrite nth_iota in N by exact Hi. rewrite K, N, Nat2Z.id. reflexivity. }
    rewrite transposeApi_meant by (try exact HN; rewrite M by exact Q; apply Q). rewrite M by exact Q. rewrite E, eqShape_refl. reflexivity.
  - assert (NI : p <> iota (length (shp x))) by (intro E; rewrite E, eqShape_refl in K; discriminate).
    destruct (transpose_all x p (length (shp x)) eq_refl L0 P NI) as [y' [Ey' [Sy [_ [[b [Eb Sb]] _]]]]]. rewrite Ey in Ey'. injection Ey' as <-. exists b. split; [|exact Sb].
    assert (Ly : length (shp y) = length (shp x)) by (rewrite Sy, len_gather; exact PL).
    rewrite transposeApi_meant by (try (intro E; rewrite E in Ly; cbn [length] in Ly; lia); rewrite M by exact Q; rewrite Ly; apply Q). rewrite M by exact Q.
    destruct (eqShape (newPattern p) (iota (length (shp y)))) eqn:E; [|exact Eb]. apply eqShape_iff in E. exfalso. apply NI. rewrite Ly in E. apply identity_inverse; assumption.
Qed.
(** Both gradients of the operator (made unless the axes are the identity) are right. *)
Theorem C40_gradient : forall (x : tens) p, shp x <> [] -> is_perm p (length (shp x)) -> p <> map Z.of_nat (seq 0 (length (shp x))) ->
  exists y, transposeNode x p = Ok y /\ transposeApi x p = Ok y /\
    forall g, shp g = shp y -> exists gx, transposeSymDiff p g = Ok gx /\ pulled_back x y g gx /\
      forall xd, shp xd = shp x -> exists xd', transposeDoDiff p xd g = Ok xd' /\ shp xd' = shp x /\ forall idx, at_ xd' idx = radd (at_ xd idx) (at_ gx idx).
Proof.
  intros x p HN P NI. assert (L0 : length (shp x) <> 0%nat) by (destruct (shp x); [contradiction|discriminate]). pose proof P as [PL _].
  destruct (transpose_all x p (length (shp x)) eq_refl L0 P NI) as [y [Ey [_ [_ [_ Gr]]]]]. exists y. split; [exact Ey|]. split.
  - assert (M : meant x p = p) by (destruct p; [cbn [length] in PL; congruence|reflexivity]). rewrite transposeApi_meant by (rewrite ?M; assumption). rewrite M. destruct (eqShape _ _) eqn:K; [apply eqShape_iff in K; contradiction|exact Ey].
  - intros g Hg. destruct (Gr g Hg) as [gx [E1 [E2 E3]]]. exists gx. split; [exact E1|]. split; [exact E2|]. intros xd Hx. destruct (E3 xd Hx) as [xd' [F1 [F2 F3]]]. exists xd'. split; [exact F1|]. split; [congruence|exact F3].
Qed.
(** Axes that are no permutation are refused. *)
Theorem C40_bad : forall (x : tens) axes, shp x <> [] -> axes <> [] -> ~ is_perm axes (length (shp x)) -> transposeApi x axes = Err.
Proof.
  intros x axes HN HA NP. unfold transposeApi. assert (Z0 : Nat.eqb (length axes) 0 = false) by (destruct axes; [contradiction|reflexivity]). rewrite Z0. cbn [negb andb]. destruct (Nat.eqb_spec (length axes) (length (shp x))) as [E|E]; [|reflexivity]. cbn [negb]. destruct axes as [|a axes]; [contradiction|].
  destruct (eqShape (a :: axes) _) eqn:K.
  - exfalso. apply NP. apply eqShape_iff in K. rewrite K. rewrite <- E. pose proof (rev_iota_perm (length (a :: axes))) as [R1 [R2 R3]]. split; [apply len_iota|]. split; [rewrite <- (rev_involutive (iota _)); apply NoDup_rev, R2|rewrite <- (rev_involutive (iota _)); apply Forall_rev, R3].
  - unfold transposeNode. destruct (shp x) as [|d s] eqn:ES; [reflexivity|]. rewrite <- ES in *. destruct (permOk _ _) eqn:PO; [apply permOk_iff in PO; contradiction|]. reflexivity.
Qed.
(** Transpose of a scalar without axes panics instead of returning it or an error. *)
Theorem C40_scalar_refuted : forall f, transposeApi (Tn [] f : tens) [] = Panic.
Proof. reflexivity. Qed.

(** ** C42: Concat *)
Definition alike (P R : list Z) (low : Z) (t : tens) : Prop := exists n, shp t = P ++ n :: R /\ low <= n.
Lemma parts_placed P R (g : tens) : positive P -> positive R -> forall (ts hs : list tens) start, Forall (alike P R 1) ts -> parts (length P) start ts hs (at_ g) -> nth (length P) (shp g) 0 = start + total (length P) ts ->
  map (@shp A) hs = map (@shp A) ts /\ placed (length P) start hs g.
Proof.
  intros HP HR. induction ts as [|t ts IH]; intros [|h hs] start HF Hp HN; cbn [parts] in Hp; try contradiction; cbn [map placed].
  - split; [reflexivity|]. unfold total in HN. cbn [fold_right] in HN. lia.
  - inversion_clear HF as [|? ? [n [Et Hn]] HF']. destruct Hp as [Sh [Vh Hp]]. unfold total in HN. cbn [fold_right] in HN. change (fold_right (fun t0 a => (nth (length P) (shp t0) 0 + a)%Z) 0%Z ts) with (total (length P) ts) in HN.
    destruct (IH hs _ HF' Hp ltac:(lia)) as [I1 I2]. split; [rewrite Sh, I1; reflexivity|]. split; [|rewrite Sh; exact I2].
    intros p i r Lp Hi. rewrite Sh in Hi. apply coords_in in Hi. rewrite Vh by exact Hi. rewrite <- Lp, shift_app. reflexivity.
Qed.
(** Any values that agree apart from one axis: the result has them side by side; the
    symbolic gradient consists of the parts of the gradient that belong to each, with
    their shapes, and is the adjoint. *)
Theorem C42_concat : forall P R (ts : list tens), positive P -> positive R -> ts <> [] -> Forall (alike P R 1) ts ->
  exists y, concatApi (Z.of_nat (length P)) ts = Ok y /\ placed (length P) 0 ts y /\ (exists D, shp y = P ++ D :: R) /\
    forall g, shp g = shp y -> exists hs, concatSymDiff (length P) 0 (map (@shp A) ts) g = Ok hs /\
      map (@shp A) hs = map (@shp A) ts /\ placed (length P) 0 hs g /\ pulled_back_all ts y g hs.
Proof.
  intros P R ts HP HR HN HF. pose proof (concat_ok P R ts HN HF) as EC. eexists. split; [exact EC|].
  pose proof (common_fit P R 1 ts HF) as FT. assert (LK : (length P < length (P ++ 1%Z :: R))%nat) by (rewrite app_length; cbn [length]; lia).
  assert (EP : forall idx, shiftAt (length P) 0 idx = idx) by (intro idx; unfold shiftAt; rewrite Z.add_0_r; apply set_self).
  split; [|split; [eexists; reflexivity|]].
  - apply (placed_ok (P ++ 1 :: R)); [exact LK|exact FT|cbn [shp]; rewrite nth_app; lia|]. intros idx _. rewrite EP. reflexivity.
  - intros g Hg. cbn [shp] in Hg. assert (PS : positive (P ++ 1 :: R)) by (apply Forall_app; split; [exact HP|constructor; [lia|exact HR]]).
    destruct (symdiff_parts (P ++ 1 :: R) (length P) (total (length P) ts) g LK PS) with (ts := ts) (start := 0) as [hs [Eh Ph]]; [rewrite set_app; exact Hg|exact FT|lia|lia|].
    destruct (parts_placed P R g HP HR ts hs 0 HF Ph) as [I1 I2]; [rewrite Hg, nth_app; lia|]. exists hs. split; [exact Eh|]. split; [exact I1|]. split; [exact I2|]. split; [exact I1|].
    cbn [shp at_]. rewrite ip_over. rewrite <- (concat_ip (P ++ 1 :: R) (length P) ts hs 0 (at_ g) LK FT Ph). rewrite set_app. apply over_ext. intros idx _. rewrite EP. reflexivity.
Qed.
(** The automatic gradient is right along the first axis when every piece is at least two
    wide there. *)
Theorem C42_concat_auto : forall R (ts ds : list tens) (y g : tens), positive R -> ts <> [] -> Forall (alike [] R 2) ts -> map (@shp A) ds = map (@shp A) ts ->
  concatApi 0 ts = Ok y -> shp g = shp y ->
  exists ds' hs, concatDoDiff 0 0 ds g = (ds', true) /\ concatSymDiff 0 0 (map (@shp A) ts) g = Ok hs /\ pulled_back_all ts y g hs /\
    Forall2 (fun d' dh => shp d' = shp (fst dh) /\ forall idx, inside (shp d') idx -> at_ d' idx = radd (at_ (fst dh) idx) (at_ (snd dh) idx)) ds' (combine ds hs).
Proof.
  intros R ts ds y g HR HN HF HD Ey Hg. assert (HF1 : Forall (alike [] R 1) ts) by (revert HF; apply Forall_impl; intros t [n [E L]]; exists n; split; [exact E|lia]).
  destruct (C42_concat [] R ts (Forall_nil _) HR HN HF1) as [y' [Ey' [_ [[D SD] K]]]]. cbn [length Z.of_nat] in Ey'. rewrite Ey in Ey'. injection Ey' as <-. destruct (K g Hg) as [hs [Eh [Sh [Ph PB]]]]. cbn [app length] in *.
  assert (HDF : Forall (fun d : tens => exists n, shp d = n :: R /\ 2 <= n) ds).
  { clear - HF HD. revert ds HD. induction HF as [|t ts [n [E L]] HF IH]; intros [|d ds] HD; try discriminate; constructor; cbn [map] in HD; injection HD as H1 H2; [exists n; rewrite H1; auto|auto]. }
  assert (ET : total 0 ds = total 0 ts).
  { clear - HD. revert ds HD. induction ts as [|t ts IH]; intros [|d ds] HD; try discriminate; [reflexivity|]. cbn [map] in HD. injection HD as H1 H2. unfold total. cbn [fold_right]. rewrite H1. specialize (IH ds H2). unfold total in IH. rewrite IH. reflexivity. }
  assert (ED : D = total 0 ts).
  { pose proof (concat_ok [] R ts HN HF1) as C. cbn [length Z.of_nat app] in C. rewrite Ey in C. injection C as C. rewrite C in SD. cbn [shp] in SD. congruence. }
  destruct (dodiff_ok R g D ltac:(congruence) ds 0 HDF ltac:(lia)) as [ds' [E' [hs' [P' F']]]]; [lia|].
  exists ds', hs. split; [exact E'|]. split; [exact Eh|]. split; [exact PB|].
  assert (W : forall (hs hs' ds ds' : list tens) start, parts 0 start ds hs' (at_ g) -> map (@shp A) hs = map (@shp A) ds -> placed 0 start hs g -> Forall (fun d : tens => exists n, shp d = n :: R /\ 2 <= n) ds ->
    Forall2 (fun d' dh => shp d' = shp (fst dh) /\ forall idx, inside (shp d') idx -> at_ d' idx = radd (at_ (fst dh) idx) (at_ (snd dh) idx)) ds' (combine ds hs') ->
    Forall2 (fun d' dh => shp d' = shp (fst dh) /\ forall idx, inside (shp d') idx -> at_ d' idx = radd (at_ (fst dh) idx) (at_ (snd dh) idx)) ds' (combine ds hs)).
  { clear. induction hs as [|h hs IH]; intros [|h' hs'] [|d ds] ds' start Pp Sm Pl Fd F2; cbn [parts map] in *; try contradiction; try discriminate; cbn [combine] in *; [exact F2|].
    inversion F2 as [|d' ? ds0 ? [S1 V1] F3]; subst. destruct Pp as [Sh' [Vh' Pp]]. injection Sm as Sm1 Sm2. cbn [placed] in Pl. destruct Pl as [Pl1 Pl2]. inversion_clear Fd as [|? ? [n [En Ln]] Fd']. constructor; [|eapply IH; [exact Pp|exact Sm2|rewrite <- Sm1; exact Pl2|exact Fd'|exact F3]].
    cbn [fst snd] in *. split; [exact S1|]. intros idx Hi. rewrite V1 by exact Hi. f_equal. rewrite S1 in Hi. rewrite Vh' by exact Hi. rewrite En in Hi. pose proof Hi as Hi'. inversion Hi' as [|? i ? r Hi1 Hr]; subst.
    pose proof (shift_app [] i r start) as SA. cbn [app length] in SA. rewrite SA. apply (Pl1 [] i r eq_refl). cbn [app]. apply coords_in. rewrite Sm1, En. exact Hi. }
  eapply W; [exact P'|rewrite HD; exact Sh|exact Ph|exact HDF|exact F'].
Qed.

(** ** C42: Repeat *)
(** The symbolic gradient is the adjoint, apart from dropping the axis (Broadcast reshapes
    it back), when the repeated axis has size one. *)
Theorem C42_repeat_one : forall P R rep (x y g : tens), positive P -> positive R -> 1 <= rep -> shp x = P ++ 1 :: R ->
  repeatNode x (Z.of_nat (length P)) rep = Ok y -> shp g = shp y ->
  exists gx, repeatSymDiff (Z.of_nat (length P)) g = Ok gx /\ shp gx = P ++ R /\
    pulled_back x y g (Tn (shp x) (fun idx => at_ gx (removeAt idx (length P)))).
Proof.
  intros P R rep x y g HP HR Hr Sx Ey Hg.
  destruct (repeat_ok x (Z.of_nat (length P)) rep) as [y' [Ey' [Sy Vy]]]; [rewrite Sx, app_length; cbn [length]; lia|]. rewrite Ey' in Ey. injection Ey as ->.
  rewrite Nat2Z.id, Sx, nth_app, set_app, Z.mul_1_l in Sy. rewrite Nat2Z.id in Vy.
  assert (NE : exists d s, shp g = d :: s) by (rewrite Hg, Sy; destruct P; eexists; eexists; reflexivity). destruct NE as [d0 [s0 NE]].
  unfold repeatSymDiff, sumApi. rewrite NE. destruct (sum_ok g [Z.of_nat (length P)]) as [d [Ed [Sd Vd]]]; [discriminate|apply nodup_one|rewrite Hg, Sy; apply Forall_app; split; [exact HP|constructor; [lia|exact HR]]|constructor; [rewrite Hg, Sy, app_length; cbn [length]; lia|constructor]|].
  exists d. split; [exact Ed|]. assert (W : forall p i r, length p = length P -> without [Z.of_nat (length P)] 0 (p ++ i :: r) = p ++ r) by (intros p i r L; rewrite without_remove by lia; rewrite Z.sub_0_r, Nat2Z.id, <- L; apply remove_app).
  split; [rewrite Sd, Hg, Sy; apply W; reflexivity|]. split; [reflexivity|]. cbn [at_ shp]. rewrite Sx, Sy.
  transitivity (ip (P ++ rep :: R) (fun full => at_ x (divAt full (length P) rep)) (at_ g)); [apply ip_ext; [intros; apply Vy|reflexivity]|]. apply push.
  - intros full Hf. apply inside_split in Hf. destruct Hf as [p [i [q [-> [Hp [Hi Hq]]]]]]. rewrite <- (inside_len _ _ Hp), div_app, Z.div_small by lia. apply inside_split. exists p, 0, q. repeat split; auto; lia.
  - intros idx Hi. rewrite Vd, Hg, Sy. apply over_ext. intros full Hf. apply inside_split in Hf. destruct Hf as [p [i [q [-> [Hp [Hi1 Hq]]]]]]. apply inside_split in Hi. destruct Hi as [p' [i' [q' [-> [Hp' [Hi' Hq']]]]]].
    pose proof (inside_len _ _ Hp) as Lp. pose proof (inside_len _ _ Hp') as Lp'. rewrite W by exact Lp. rewrite <- Lp' at 1. rewrite remove_app. rewrite <- Lp, div_app, Z.div_small by lia. assert (i' = 0) by lia. subst i'.
    destruct (eqShape (p ++ q) (p' ++ q')) eqn:K1; destruct (eqShape (p ++ 0 :: q) (p' ++ 0 :: q')) eqn:K2; try reflexivity; exfalso.
    + apply eqShape_iff in K1. assert (K3 : p = p' /\ q = q') by (apply app_inv_len; [lia|exact K1]). destruct K3 as [-> ->]. rewrite eqShape_refl in K2. discriminate.
    + apply eqShape_iff in K2. assert (K3 : p = p' /\ 0 :: q = 0 :: q') by (apply app_inv_len; [lia|exact K2]). destruct K3 as [-> K3]. injection K3 as ->. rewrite eqShape_refl in K1. discriminate.
Qed.
(** The automatic gradient adds the adjoint when the repeated axis has at least two
    entries. *)
Theorem C42_repeat_auto : forall P n R rep (x y g xd : tens), 2 <= n -> 1 <= rep -> positive P -> positive R ->
  shp x = P ++ n :: R -> repeatNode x (Z.of_nat (length P)) rep = Ok y -> shp g = shp y -> shp xd = shp x ->
  exists xd' h, repeatDoDiff (Z.of_nat (length P)) rep xd g = Ok xd' /\ pulled_back x y g h /\ shp xd' = shp x /\
    forall idx, inside (shp x) idx -> at_ xd' idx = radd (at_ xd idx) (at_ h idx).
Proof. exact (@repeat_auto A CR). Qed.
(** Also for a vector of one entry: the sum of the gradients is added. *)
Theorem C42_repeat_auto_single : forall rep (x y g xd : tens), 1 <= rep ->
  shp x = [1] -> repeatNode x 0 rep = Ok y -> shp g = shp y -> shp xd = [1] ->
  exists xd', repeatDoDiff 0 rep xd g = Ok xd' /\ shp xd' = [1] /\
    at_ xd' [0] = radd (at_ xd [0]) (lsum (map (fun k => at_ g [k]) (map Z.of_nat (seq 0 (Z.to_nat rep))))).
Proof.
  intros rep x y g xd Hr Sx Ey Hg Hx.
  destruct (repeat_ok x 0 rep) as [y' [Ey' [Sy _]]]; [rewrite Sx; cbn [length]; lia|]. rewrite Ey' in Ey. injection Ey as ->.
  rewrite Sx in Sy. cbn in Sy. assert (Sg : shp g = [rep]) by (rewrite Hg, Sy; destruct rep; reflexivity || lia).
  unfold repeatDoDiff. rewrite Hx. cbn [nth_error Z.to_nat Z.eqb Pos.eqb].
  destruct (sum_ok g [0]) as [d [Ed [Sd Vd]]]; [discriminate|apply nodup_one|rewrite Sg; repeat constructor; lia|rewrite Sg; repeat constructor; cbn [length]; lia|].
  rewrite Ed. cbn [bind]. unfold addDeriv. rewrite Sd, Sg. cbn. eexists. split; [reflexivity|]. split; [exact Hx|]. cbn [at_]. f_equal.
  rewrite Vd, Sg. rewrite over_coords. unfold coords. cbn [map].
  f_equal. induction (seq 0 (Z.to_nat rep)) as [|k l IH]; [reflexivity|]. cbn [flat_map map app]. f_equal. exact IH.
Qed.

(** ** C59 *)
(** Slice is basic slicing for every list of slices, and an error when one is out of
    range or there are too many. *)
Theorem C59_slice : forall (x : tens) slices, shp x <> [] ->
  (fits slices (shp x) -> exists y, sliceApi x slices = Ok y /\ shp y = cut slices (shp x) /\ forall idx, inside (shp y) idx -> at_ y idx = at_ x (readAt slices idx)) /\
  (~ fits slices (shp x) -> sliceApi x slices = Err).
Proof.
  intros x slices HN. destruct (sliceApi_ok x slices HN) as [[F [y Hy]]|[F E]]; split; intro K; try contradiction; [exists y; exact Hy|exact E].
Qed.
(** The gradients of one slicing operator: zero outside the slice, the gradient inside.
    The result depends on the shape of [x] alone, so it is the adjoint. *)
Theorem C59_gradient : forall (x : tens) along sl y, 0 <= along < Z.of_nat (length (shp x)) -> sliceNode x along sl = Ok y -> forall g, shp g = shp y ->
  exists gx, sliceIncr x along sl g = Ok gx /\
    (forall x' y', shp x' = shp x -> sliceNode x' along sl = Ok y' -> pulled_back x' y' g gx) /\
    forall xd, shp xd = shp x -> exists xd', sliceDoDiff xd along sl g = Ok xd' /\ shp xd' = shp x /\ forall idx, at_ xd' idx = radd (at_ xd idx) (at_ gx idx).
Proof.
  intros x along sl y Ha Hy g Hg. destruct (slice_grad x along sl y Ha Hy g Hg) as [gx [Eg PB]]. exists gx. split; [exact Eg|].
  assert (SI : forall x' : tens, shp x' = shp x -> sliceIncr x' along sl g = Ok gx).
  { intros x' Sx. rewrite <- Eg. unfold sliceIncr. rewrite Sx. reflexivity. }
  split.
  - intros x' y' Sx Hy'. assert (Hg' : shp g = shp y').
    { rewrite Hg. unfold sliceNode in Hy, Hy'. destruct sl as [[st en]|]; [|congruence]. rewrite Sx in Hy'. destruct (nth_error _ _); [|discriminate]. destruct ((st <? 0) || _ || _); [discriminate|]. destruct (en - st =? 1); injection Hy as <-; injection Hy' as <-; reflexivity. }
    destruct (slice_grad x' along sl y' ltac:(rewrite Sx; exact Ha) Hy' g Hg') as [gx' [Eg' PB']]. rewrite SI in Eg' by exact Sx. injection Eg' as <-. exact PB'.
  - intros xd Sd. unfold sliceDoDiff. rewrite (SI xd Sd). cbn [bind]. eexists. split; [reflexivity|]. split; [exact Sd|]. reflexivity.
Qed.
(** Unconcat, when the pieces and all other axes are at least two wide: the pieces have
    the expected shape, lie side by side in the input, and Concat gives the input back. *)
Theorem C59_unconcat : forall P R n w (a : tens), Forall (fun d => 2 <= d) P -> Forall (fun d => 2 <= d) R -> 2 <= w -> 1 <= n -> shp a = P ++ n * w :: R ->
  exists l, unconcat a (Z.of_nat (length P)) n = Ok l /\ Z.of_nat (length l) = n /\ Forall (fun t => shp t = P ++ w :: R) l /\
    exists y, concatApi (Z.of_nat (length P)) l = Ok y /\ same y a.
Proof.
  intros P R n w a HP HR Hw Hn Sa. unfold unconcat. rewrite Nat2Z.id. assert (LL : length (shp a) = (length P + S (length R))%nat) by (rewrite Sa, app_length; reflexivity).
  destruct (Z.ltb_spec (Z.of_nat (length P)) 0); [lia|]. destruct (Z.ltb_spec (Z.of_nat (length (shp a))) (Z.of_nat (length P))); [lia|]. cbn [orb]. assert (NT : nth_error (shp a) (length P) = Some (n * w)) by (rewrite Sa, nth_error_app2, Nat.sub_diag by lia; reflexivity). rewrite NT.
  destruct (Z.eqb_spec n 0); [lia|]. assert (E1 : Z.rem (n * w) n = 0) by (rewrite Z.mul_comm; apply Z.rem_mul; lia). rewrite E1. cbn [Z.eqb negb]. assert (E2 : Z.quot (n * w) n = w) by (rewrite Z.mul_comm; apply Z.quot_mul; lia). rewrite E2. destruct (Z.eqb_spec w 0); [lia|].
  assert (E3 : Z.quot (n * w) w = n) by (apply Z.quot_mul; lia). rewrite E3.
  destruct (unconcat_loop a P (n * w) R w Sa HP HR Hw (Z.to_nat n) 0 ltac:(lia) ltac:(nia)) as [l [El [Ll [Hl Vl]]]]. exists l. split; [exact El|]. split; [lia|]. split; [exact Hl|].
  assert (FL : Forall (fun t : tens => exists m, shp t = P ++ m :: R /\ 1 <= m) l) by (revert Hl; apply Forall_impl; intros t E; exists w; split; [exact E|lia]).
  assert (NL : l <> []) by (intro K; subst l; cbn [length] in Ll; lia).
  eexists. split; [apply (concat_ok P R l NL FL)|].
  assert (ET : total (length P) l = n * w).
  { replace n with (Z.of_nat (length l)) by lia. clear - Hl. induction Hl as [|t l E Hl IH]; [reflexivity|]. unfold total in *. cbn [fold_right length]. rewrite IH, E, nth_app. lia. }
  split; cbn [shp at_]; [rewrite ET; symmetry; exact Sa|]. intros idx Hi. apply coords_in in Hi. apply inside_split in Hi. destruct Hi as [p [i [r [-> [Hp [Hi Hr]]]]]]. rewrite Vl by (try assumption; nia). rewrite Z.add_0_r. reflexivity.
Qed.

(** ** C60 *)
(** Sum over any distinct axes and its symbolic gradient. *)
Theorem C60_sum : forall (x : tens) axes, axes <> [] -> NoDup axes -> Forall (fun a => 0 <= a < Z.of_nat (length (shp x))) axes -> positive (shp x) ->
  exists y, sumApi x axes = Ok y /\ shp y = without axes 0 (shp x) /\
    (forall idx, at_ y idx = lsum (map (at_ x) (filter (fun full => if list_eq_dec Z.eq_dec (without axes 0 full) idx then true else false) (coords (shp x))))) /\
    forall g, shp g = shp y -> exists gx, sumSymDiff axes x g = Ok gx /\ pulled_back x y g gx /\ forall idx, inside (shp x) idx -> at_ gx idx = at_ g (without axes 0 idx).
Proof.
  intros x axes HN ND HF HP. destruct (sum_grad x axes HN ND HF HP) as [y [Ey [Sy Gr]]]. destruct (sum_ok x axes HN ND HP HF) as [y' [Ey' [_ Vy]]]. rewrite Ey in Ey'. injection Ey' as <-. exists y.
  split; [|split; [exact Sy|split; [|exact Gr]]].
  - unfold sumApi. destruct (shp x) as [|d s] eqn:E; [|destruct axes; [contradiction|exact Ey]]. destruct axes as [|a axes]; [contradiction|]. inversion_clear HF. cbn [length] in *. lia.
  - intro idx. rewrite Vy, over_coords. clear. induction (coords (shp x)) as [|c l IH]; [reflexivity|]. cbn [map filter]. unfold eqShape in *.
    destruct (list_eq_dec Z.eq_dec (without axes 0 c) idx); cbn [map lsum]; rewrite IH; [reflexivity|ring].
Qed.
(** The gradient through one side of Broadcast: an operand of lower rank, and one of the
    same rank with axes of size one. *)
Theorem C60_broadcast_lower : forall (t other : tens) axes, axes <> [] -> StronglySorted Z.lt axes -> Forall (fun a => 0 <= a < Z.of_nat (length (shp other))) axes ->
  positive (shp t) -> positive (shp other) -> shp t <> [] -> length (without axes 0 (shp other)) = length (shp t) -> length (shp t) <> length (shp other) ->
  exists t', broadcastSide t (length (shp other)) other axes = Ok t' /\
    forall g, shp g = shp t' -> exists gt, broadcastGrad t axes g = Ok gt /\ pulled_back t t' g gt.
Proof. exact (@bgrad_insert A CR). Qed.
Theorem C60_broadcast_same : forall (t other : tens) axes, axes <> [] -> StronglySorted Z.lt axes -> length (shp t) = length (shp other) -> Forall (fun a => 0 <= a < Z.of_nat (length (shp t))) axes ->
  positive (shp t) -> positive (shp other) -> Forall (fun a => nth (Z.to_nat a) (shp t) 0 = 1) axes ->
  exists t', broadcastSide t (length (shp other)) other axes = Ok t' /\
    forall g, shp g = shp t' -> exists gt, broadcastGrad t axes g = Ok gt /\ pulled_back t t' g gt.
Proof. exact (@bgrad_same A CR). Qed.
End Props.
Print Assumptions C40_transpose.
Print Assumptions C40_compose.
Print Assumptions C40_round_trip.
Print Assumptions C40_gradient.
Print Assumptions C40_bad.
Print Assumptions C40_scalar_refuted.
Print Assumptions C42_concat.
Print Assumptions C42_concat_auto.
Print Assumptions C42_repeat_one.
Print Assumptions C42_repeat_auto.
Print Assumptions C42_repeat_auto_single.
Print Assumptions C59_slice.
Print Assumptions C59_gradient.
Print Assumptions C59_unconcat.
Print Assumptions C60_sum.
Print Assumptions C60_broadcast_lower.
Print Assumptions C60_broadcast_same.

(** ** Failures *)
(** The symbolic gradient of Repeat for a repeated axis of two or more entries: a value
    with fewer entries than the input. *)
Theorem C42_repeat_many_refuted : forall {A : Type} {CR : CRing A} P n R rep (x y g : @tens A), 2 <= n -> 1 <= rep -> positive P -> positive R ->
  shp x = P ++ n :: R -> repeatNode x (Z.of_nat (length P)) rep = Ok y -> shp g = shp y ->
  exists gx, repeatSymDiff (Z.of_nat (length P)) g = Ok gx /\ shp gx = P ++ R /\ totalSize (shp gx) < totalSize (shp x).
Proof.
  intros A CR P n R rep x y g Hn Hr HP HR Sx Ey Hg.
  destruct (repeat_ok x (Z.of_nat (length P)) rep) as [y' [Ey' [Sy Vy]]]; [rewrite Sx, app_length; cbn [length]; lia|]. rewrite Ey' in Ey. injection Ey as ->.
  rewrite Nat2Z.id, Sx, nth_app, set_app in Sy.
  assert (NE : exists d s, shp g = d :: s) by (rewrite Hg, Sy; destruct P; eexists; eexists; reflexivity). destruct NE as [d0 [s0 NE]].
  unfold repeatSymDiff, sumApi. rewrite NE. destruct (sum_ok g [Z.of_nat (length P)]) as [d [Ed [Sd _]]]; [discriminate|apply nodup_one|rewrite Hg, Sy; apply Forall_app; split; [exact HP|constructor; [nia|exact HR]]|constructor; [rewrite Hg, Sy, app_length; cbn [length]; lia|constructor]|].
  exists d. split; [exact Ed|]. assert (SD : shp d = P ++ R) by (rewrite Sd, Hg, Sy, without_remove by lia; rewrite Z.sub_0_r, Nat2Z.id; apply remove_app). split; [exact SD|]. rewrite SD, Sx, !total_app.
  assert (T : forall s, positive s -> 1 <= totalSize s) by (induction 1 as [|a s Ha _ IH]; unfold totalSize in *; cbn [fold_right]; nia).
  pose proof (T P HP). pose proof (T R HR). unfold totalSize in *. cbn [fold_right]. nia.
Qed.
Print Assumptions C42_repeat_many_refuted.

(** The entries in row-major order. *)
Definition entries (t : @tens Z) : list Z := map (at_ t) (coords (shp t)).
(** A value with given entries. *)
Definition mk (s l : list Z) : @tens Z := Tn s (fun idx => nth (Z.to_nat (ravel s idx)) l 0).

(** The automatic gradient of Concat along another axis than the first: two columns get
    the rows of the gradient, without an error. *)
Theorem C42_concat_auto_axis_refuted :
  let a := mk [2; 1] [5; 6] in let b := mk [2; 1] [7; 8] in let g := mk [2; 2] [1; 2; 3; 4] in let z := mk [2; 1] [0; 0] in
  exists y hs ds', concatApi 1 [a; b] = Ok y /\ shp g = shp y /\
  concatSymDiff 1 0 [shp a; shp b] g = Ok hs /\ pulled_back_all [a; b] y g hs /\ map entries hs = [[1; 3]; [2; 4]] /\
  concatDoDiff 1 0 [z; z] g = (ds', true) /\ map entries ds' = [[1; 2]; [3; 4]].
Proof.
  cbv zeta. eexists. eexists. eexists. split; [reflexivity|]. split; [reflexivity|]. split; [reflexivity|]. split; [split; vm_compute; reflexivity|]. split; [vm_compute; reflexivity|]. split; [reflexivity|]. vm_compute; reflexivity.
Qed.
Print Assumptions C42_concat_auto_axis_refuted.
(** A piece of width one in a matrix: its derivative is left unchanged, the error of Add is
    dropped. *)
Theorem C42_concat_auto_narrow_refuted :
  exists y hs, concatApi 0 [mk [1; 1] [5]; mk [2; 1] [6; 7]] = Ok y /\ shp y = [3; 1] /\
  concatSymDiff 0 0 [[1; 1]; [2; 1]] (mk [3; 1] [1; 2; 3]) = Ok hs /\ map entries hs = [[1]; [2; 3]] /\
  exists ds', concatDoDiff 0 0 [mk [1; 1] [0]; mk [2; 1] [0; 0]] (mk [3; 1] [1; 2; 3]) = (ds', true) /\ map entries ds' = [[0]; [2; 3]].
Proof.
  eexists. eexists. split; [reflexivity|]. split; [reflexivity|]. split; [reflexivity|]. split; [vm_compute; reflexivity|]. eexists. split; [reflexivity|]. vm_compute; reflexivity.
Qed.
Print Assumptions C42_concat_auto_narrow_refuted.
(** The automatic gradient of Repeat along an axis of size one of a value with three axes
    is an error. *)
Theorem C42_repeat_auto_one_refuted : let x := mk [2; 1; 2] [1; 2; 3; 4] in
  exists y, repeatNode x 1 3 = Ok y /\ shp y = [2; 3; 2] /\ forall f, repeatDoDiff 1 3 x (Tn (shp y) f) = Err.
Proof. cbv zeta. eexists. split; [reflexivity|]. split; [reflexivity|]. intro f. reflexivity. Qed.
Print Assumptions C42_repeat_auto_one_refuted.
(** Unconcat into pieces of width one drops the axis, and Concat does not undo it. *)
Theorem C59_unconcat_narrow_refuted : exists l y, unconcat (mk [2; 3] [1; 2; 3; 4; 5; 6]) 0 2 = Ok l /\ map (@shp Z) l = [[3]; [3]] /\
  concatApi 0 l = Ok y /\ shp y = [6].
Proof. eexists. eexists. split; [reflexivity|]. split; [reflexivity|]. split; reflexivity. Qed.
Print Assumptions C59_unconcat_narrow_refuted.
(** The check of [along] in Unconcat lets the number of axes pass: a panic instead of the
    error. *)
Theorem C59_unconcat_along_refuted : forall {A : Type} {CR : CRing A} (a : @tens A) n, unconcat a (Z.of_nat (length (shp a))) n = Panic.
Proof.
  intros A CR a n. unfold unconcat. rewrite Z.ltb_irrefl, Nat2Z.id. destruct (Z.ltb_spec (Z.of_nat (length (shp a))) 0); [lia|]. cbn [orb]. rewrite (proj2 (nth_error_None (shp a) (length (shp a)))) by lia. reflexivity.
Qed.
Print Assumptions C59_unconcat_along_refuted.

(** ** Examples *)
Definition val (r : res (@tens Z)) : option (list Z * list Z) := match r with Ok t => Some (shp t, entries t) | _ => None end.
Definition vals (r : res (list (@tens Z))) : option (list (list Z * list Z)) := match r with Ok l => Some (map (fun t => (shp t, entries t)) l) | _ => None end.
Example C40_ex : let x := mk [2; 3; 1] [1; 2; 3; 4; 5; 6] in
  is_perm [2; 0; 1] 3 /\ val (transposeApi x [2; 0; 1]) = Some ([1; 2; 3], [1; 2; 3; 4; 5; 6]) /\
  is_perm (meant x []) 3 /\ val (transposeApi x []) = Some ([1; 3; 2], [1; 4; 2; 5; 3; 6]) /\
  newPattern [2; 0; 1] = [1; 2; 0] /\ gather [1; 2; 0] [2; 0; 1] = [0; 1; 2] /\ transposeApi x [0; 0; 1] = Err /\ transposeApi x [0; 1; 2] = Ok x /\
  val (transposeSymDiff [1; 0] (mk [3; 2] [1; 2; 3; 4; 5; 6])) = Some ([2; 3], [1; 3; 5; 2; 4; 6]).
Proof.
  cbv zeta. assert (D : NoDup [2; 0; 1]) by (repeat (constructor; [cbn; intuition discriminate|]); constructor). assert (D' : NoDup [2; 1; 0]) by (repeat (constructor; [cbn; intuition discriminate|]); constructor).
  repeat split; try exact D; try exact D'; try (vm_compute; reflexivity); repeat constructor; lia.
Qed.
Example C42_ex_concat : let a := mk [2; 1] [1; 2] in let b := mk [2; 2] [3; 4; 5; 6] in
  Forall (alike [2] [] 1) [a; b] /\ val (concatApi 1 [a; b]) = Some ([2; 3], [1; 3; 4; 2; 5; 6]) /\
  vals (concatSymDiff 1 0 [[2; 1]; [2; 2]] (mk [2; 3] [1; 2; 3; 4; 5; 6])) = Some [([2; 1], [1; 4]); ([2; 2], [2; 3; 5; 6])].
Proof. cbv zeta. split; [repeat constructor; eexists; (split; [reflexivity|lia])|]. split; vm_compute; reflexivity. Qed.
Example C42_ex_concat_auto : let a := mk [2; 2] [1; 2; 3; 4] in
  Forall (alike [] [2] 2) [a; a] /\ map entries (fst (concatDoDiff 0 0 [a; a] (mk [4; 2] [10; 20; 30; 40; 50; 60; 70; 80]))) = [[11; 22; 33; 44]; [51; 62; 73; 84]].
Proof. cbv zeta. split; [repeat constructor; eexists; (split; [reflexivity|lia])|]. vm_compute. reflexivity. Qed.
Example C42_ex_repeat : val (repeatNode (mk [2; 1] [1; 2]) 1 3) = Some ([2; 3], [1; 1; 1; 2; 2; 2]) /\
  val (repeatSymDiff 1 (mk [2; 3] [1; 2; 3; 4; 5; 6])) = Some ([2], [6; 15]) /\
  val (repeatDoDiff 0 2 (mk [2] [100; 200]) (mk [4] [1; 2; 3; 4])) = Some ([2], [103; 207]) /\
  val (repeatDoDiff 1 2 (mk [1; 2; 2] [0; 0; 0; 0]) (mk [1; 4; 2] [1; 2; 3; 4; 5; 6; 7; 8])) = Some ([1; 2; 2], [4; 6; 12; 14]).
Proof. repeat split; vm_compute; reflexivity. Qed.
Example C59_ex : let x := mk [2; 3; 2] [1; 2; 3; 4; 5; 6; 7; 8; 9; 10; 11; 12] in
  fits [Some (1, 2); None; Some (0, 2)] (shp x) /\ val (sliceApi x [Some (1, 2); Some (1, 3)]) = Some ([2; 2], [9; 10; 11; 12]) /\
  ~ fits [Some (1, 3)] (shp x) /\ sliceApi x [Some (1, 3)] = Err /\
  val (sliceIncr (mk [2; 3] [0; 0; 0; 0; 0; 0]) 1 (Some (1, 2)) (mk [2] [7; 8])) = Some ([2; 3], [0; 7; 0; 0; 8; 0]) /\
  vals (unconcat (mk [2; 4] [1; 2; 3; 4; 5; 6; 7; 8]) 1 2) = Some [([2; 2], [1; 2; 5; 6]); ([2; 2], [3; 4; 7; 8])].
Proof. cbv zeta. split; [cbn; lia|]. split; [vm_compute; reflexivity|]. split; [cbn; lia|]. split; [reflexivity|]. split; vm_compute; reflexivity. Qed.
Example C60_ex : let x := mk [2; 3; 2] [1; 2; 3; 4; 5; 6; 7; 8; 9; 10; 11; 12] in
  val (sumApi x [2; 0]) = Some ([3], [18; 26; 34]) /\ val (sumSymDiff [2; 0] x (mk [3] [1; 2; 3])) = Some ([2; 3; 2], [1; 1; 2; 2; 3; 3; 1; 1; 2; 2; 3; 3]) /\
  val (broadcastSide (mk [1; 2] [7; 8]) 2 (mk [3; 2] [0; 0; 0; 0; 0; 0]) [0]) = Some ([3; 2], [7; 8; 7; 8; 7; 8]) /\
  val (broadcastGrad (mk [1; 2] [7; 8]) [0] (mk [3; 2] [1; 2; 3; 4; 5; 6])) = Some ([1; 2], [9; 12]).
Proof. repeat split; vm_compute; reflexivity. Qed.
