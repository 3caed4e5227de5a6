(** C90: the shapes of nodes when construction options are used once, and more than once. *)
From Coq Require Import List ZArith Bool Arith String Lia.
From Verif Require Import BroadcastModel NodeOptModel.
Import ListNotations.

(** ** What should hold *)
(** Every node has the shape it was made with, and no slice in the pool is in use. *)
Record healthy (st : ost) : Prop := {
  h_key : forall n, In n (onodes st) -> okey n = option_map (sliceAt st) (oslice n);
  h_pool : forall i, In i (ipool st) -> i < List.length (slices st);
  h_node : forall n i, In n (onodes st) -> oslice n = Some i -> i < List.length (slices st) /\ ~ In i (ipool st);
  h_tens : forall i, In i (tshape st) -> i < List.length (slices st) /\ ~ In i (ipool st);
  h_once : NoDup (ipool st) }.
(** A type with [dims] axes can have the shape. *)
Definition suits (dims : nat) (sh : list Z) : Prop :=
  List.length sh = dims \/ (dims = 1 /\ exists k, (1 < k)%Z /\ (sh = [k; 1%Z] \/ sh = [1%Z; k])) \/
  (dims = 0 /\ fold_right Z.mul 1%Z sh = 1%Z).
(** Nodes and tensors keep their shapes. *)
Definition keepsShapes (st st' : ost) : Prop :=
  (forall k s, shapeOf st k = Some s -> shapeOf st' k = Some s) /\ (forall t s, tensorShape st t = Some s -> tensorShape st' t = Some s).
Definition zeros (n : nat) : list Z := repeat 0%Z n.

(** ** Lemmas *)
Lemma upd_length : forall l i x, List.length (upd l i x) = List.length l.
Proof. induction l as [|y l IH]; intros [|i] x; cbn; [reflexivity..|]. rewrite IH. reflexivity. Qed.
Lemma upd_same : forall l i x, i < List.length l -> nth i (upd l i x) [] = x.
Proof. induction l as [|y l IH]; intros [|i] x H; cbn in *; [lia..|reflexivity|]. apply IH. lia. Qed.
Lemma upd_other : forall l i j x, i <> j -> nth j (upd l i x) [] = nth j l [].
Proof. induction l as [|y l IH]; intros [|i] [|j] x H; cbn; try reflexivity; try lia. apply IH. lia. Qed.
Lemma drop_in : forall i l j, In j (dropOne i l) -> In j l.
Proof. induction l as [|y l IH]; intros j H; cbn in *; [exact H|]. destruct (Nat.eqb i y); [right; exact H|]. destruct H as [H|H]; [left; exact H|right; apply IH, H]. Qed.
Lemma drop_out : forall i l, NoDup l -> ~ In i (dropOne i l) /\ NoDup (dropOne i l).
Proof.
  induction l as [|y l IH]; intro N; cbn; [split; [intro H; exact H|exact N]|]. inversion N as [|? ? NI ND]; subst. destruct (Nat.eqb_spec i y) as [->|NE].
  - split; [exact NI|exact ND].
  - destruct (IH ND) as [A B]. split; [intros [H|H]; [congruence|exact (A H)]|]. constructor; [intro H; apply NI, (drop_in i), H|exact B].
Qed.
Lemma isVec_spec : forall s, isVec s = true <-> exists k, (1 < k)%Z /\ (s = [k; 1%Z] \/ s = [1%Z; k]).
Proof.
  intro s. split.
  - destruct s as [|x [|y [|z s]]]; cbn; try discriminate. rewrite orb_true_iff, !andb_true_iff, !Z.eqb_eq, !Z.ltb_lt.
    intros [[-> H]|[-> H]]; [exists x|exists y]; (split; [exact H|]); [left|right]; reflexivity.
  - intros (k & K & [->| ->]); cbn; apply Z.ltb_lt in K; rewrite K; cbn; rewrite ?orb_true_r; reflexivity.
Qed.

Section C90.
Variable pick : nat -> list nat -> option nat.
Notation borrowInts := (borrowInts pick). Notation withShapeOpt := (withShapeOpt pick). Notation newConstant := (newConstant pick).

Lemma at_app : forall st i x, i < List.length (slices st) -> nth i (slices st ++ [x]) [] = sliceAt st i.
Proof. intros st i x H. unfold sliceAt. apply app_nth1, H. Qed.

(** Borrowing: the slice holds what was copied in, is not in the pool, belongs to no node
    and no tensor, and nothing else changes. *)
Lemma borrow_ok : forall st sh st1 i, healthy st -> borrowInts st sh = (st1, i) ->
  healthy st1 /\ i < List.length (slices st1) /\ sliceAt st1 i = sh /\ ~ In i (ipool st1) /\ onodes st1 = onodes st /\ tshape st1 = tshape st
  /\ (forall n, In n (onodes st) -> oslice n <> Some i) /\ ~ In i (tshape st)
  /\ (forall j, j < List.length (slices st) -> j <> i -> ~ In j (ipool st) -> sliceAt st1 j = sliceAt st j /\ ~ In j (ipool st1) /\ j < List.length (slices st1)).
Proof.
  intros st sh st1 i H B. unfold NodeOptModel.borrowInts in B. pose proof H as [HK HP HN HT HO].
  set (L := filter _ (ipool st)) in B. set (fresh := (_, List.length (slices st)) : ost * nat) in B.
  assert (FR : fresh = (st1, i) -> healthy st1 /\ i < List.length (slices st1) /\ sliceAt st1 i = sh /\ ~ In i (ipool st1) /\ onodes st1 = onodes st /\ tshape st1 = tshape st
    /\ (forall n, In n (onodes st) -> oslice n <> Some i) /\ ~ In i (tshape st)
    /\ (forall j, j < List.length (slices st) -> j <> i -> ~ In j (ipool st) -> sliceAt st1 j = sliceAt st j /\ ~ In j (ipool st1) /\ j < List.length (slices st1))).
  { intro E. injection E as <- <-. cbn [slices ipool tshape onodes]. rewrite app_length. cbn [List.length].
    split; [constructor; cbn [slices ipool tshape onodes]|].
    - intros n I. rewrite (HK n I). destruct (oslice n) as [j|] eqn:O; [|reflexivity]. cbn [option_map]. f_equal. unfold sliceAt at 2. cbn [slices].
      symmetry. apply at_app. apply (HN n j I O).
    - intros j J. rewrite app_length. specialize (HP j J). lia.
    - intros n j I O. rewrite app_length. destruct (HN n j I O). split; [lia|assumption].
    - intros j J. rewrite app_length. destruct (HT j J). split; [lia|assumption].
    - exact HO.
    - split; [lia|]. split; [unfold sliceAt; cbn [slices]; rewrite app_nth2, Nat.sub_diag by lia; reflexivity|].
      split; [intro J; specialize (HP _ J); lia|]. split; [reflexivity|]. split; [reflexivity|].
      split; [intros n I O; destruct (HN n _ I O); lia|]. split; [intro J; destruct (HT _ J); lia|].
      intros j J N NP. split; [unfold sliceAt at 1; cbn [slices]; apply at_app, J|]. split; [exact NP|lia]. }
  destruct (8 <=? List.length sh); [apply FR, B|]. destruct (pick (List.length sh) L) as [p|]; [|apply FR, B].
  destruct (existsb (Nat.eqb p) L) eqn:EX; [|apply FR, B]. clear FR.
  assert (IP : In p (ipool st)).
  { apply existsb_exists in EX. destruct EX as (q & Q & E). apply Nat.eqb_eq in E. subst q. unfold L in Q. apply filter_In in Q. apply Q. }
  injection B as <- <-. pose proof (HP p IP) as LP. destruct (drop_out p (ipool st) HO) as [DO DN].
  split; [constructor; cbn [slices ipool tshape onodes]|].
  - intros n I. rewrite (HK n I). destruct (oslice n) as [j|] eqn:O; [|reflexivity]. cbn [option_map]. f_equal. unfold sliceAt. cbn [slices].
    symmetry. apply upd_other. destruct (HN n j I O) as [_ X]. intros ->. exact (X IP).
  - intros j J. rewrite upd_length. apply HP, (drop_in p), J.
  - intros n j I O. rewrite upd_length. destruct (HN n j I O) as [A X]. split; [exact A|]. intro J. apply X, (drop_in p), J.
  - intros j J. rewrite upd_length. destruct (HT j J) as [A X]. split; [exact A|]. intro Q. apply X, (drop_in p), Q.
  - exact DN.
  - cbn [slices ipool tshape onodes]. rewrite upd_length. split; [exact LP|]. split; [unfold sliceAt; cbn [slices]; apply upd_same, LP|]. split; [exact DO|].
    split; [reflexivity|]. split; [reflexivity|]. split; [intros n I O; destruct (HN n p I O); contradiction|]. split; [intro J; destruct (HT _ J); contradiction|].
    intros j J N NP. split; [unfold sliceAt; cbn [slices]; apply upd_other; congruence|]. split; [intro Q; apply NP, (drop_in p), Q|exact J].
Qed.

Lemma nth_in : forall A (l : list A) k x, nth_error l k = Some x -> In x l.
Proof. intros A l k x H. apply nth_error_In in H. exact H. Qed.
Lemma borrow_keeps : forall st sh st1 i, healthy st -> borrowInts st sh = (st1, i) -> keepsShapes st st1.
Proof.
  intros st sh st1 i H B. destruct (borrow_ok st sh st1 i H B) as (H1 & L1 & C1 & P1 & ON & TS & NN & NT & OT). destruct H as [HK HP HN HT HO]. split.
  - intros k s. unfold shapeOf. rewrite ON. destruct (nth_error (onodes st) k) as [n|] eqn:E; [|discriminate]. intro Q. injection Q as <-.
    destruct (oslice n) as [j|] eqn:O; [|reflexivity]. destruct (HN n j (nth_in _ _ _ _ E) O) as [A X]. f_equal. apply OT; [exact A| |exact X].
    intros ->. apply (NN n (nth_in _ _ _ _ E)), O.
  - intros t s. unfold tensorShape. rewrite TS. destruct (nth_error (tshape st) t) as [j|] eqn:E; [|discriminate]. intro Q. injection Q as <-.
    destruct (HT j (nth_in _ _ _ _ E)) as [A X]. cbn [option_map]. f_equal. apply OT; [exact A| |exact X]. intros ->. apply NT, (nth_in _ _ _ _ E).
Qed.

(** Returning a slice nobody uses changes nobody's shape. *)
Lemma return_ok : forall st i, healthy st -> i < List.length (slices st) -> ~ In i (ipool st) ->
  (forall n, In n (onodes st) -> oslice n <> Some i) -> ~ In i (tshape st) ->
  healthy (returnInts st (Some i)) /\ keepsShapes st (returnInts st (Some i)).
Proof.
  intros st i H L NP NN NT. cbn [returnInts]. destruct (8 <=? _); [split; [exact H|split; auto]|]. destruct H as [HK HP HN HT HO].
  set (z := map _ _). assert (OT : forall j, j <> i -> nth j (upd (slices st) i z) [] = sliceAt st j) by (intros j N; apply upd_other; congruence).
  split; [constructor; cbn [slices ipool tshape onodes]|split].
  - intros n I. rewrite (HK n I). destruct (oslice n) as [j|] eqn:O; [|reflexivity]. cbn [option_map]. f_equal. unfold sliceAt at 2. cbn [slices]. symmetry. apply OT.
    intros ->. apply (NN n I), O.
  - intros j J. rewrite upd_length. apply in_app_or in J. destruct J as [J|[<-|[]]]; [apply HP, J|exact L].
  - intros n j I O. rewrite upd_length. destruct (HN n j I O) as [A X]. split; [exact A|]. intro J. apply in_app_or in J. destruct J as [J|[<-|[]]]; [exact (X J)|]. apply (NN n I), O.
  - intros j I. rewrite upd_length. destruct (HT j I) as [A X]. split; [exact A|]. intro J. apply in_app_or in J. destruct J as [J|[<-|[]]]; [exact (X J)|exact (NT I)].
  - apply NoDup_nth_error. intros a b A E. assert (ND : NoDup (ipool st ++ [i])).
    { apply NoDup_rev in HO. rewrite <- (rev_involutive (ipool st ++ [i])). apply NoDup_rev. rewrite rev_app_distr. cbn. constructor; [rewrite <- in_rev; exact NP|exact HO]. }
    apply (proj1 (NoDup_nth_error _) ND a b A E).
  - intros k s. unfold shapeOf. cbn [onodes]. destruct (nth_error (onodes st) k) as [n|] eqn:E; [|discriminate]. intro Q. injection Q as <-.
    destruct (oslice n) as [j|] eqn:O; [|reflexivity]. f_equal. unfold sliceAt at 1. cbn [slices]. apply OT. intros ->. apply (NN n (nth_in _ _ _ _ E)), O.
  - intros t s. unfold tensorShape. cbn [tshape]. destruct (nth_error (tshape st) t) as [j|] eqn:E; [|discriminate]. intro Q. injection Q as <-.
    cbn [option_map]. f_equal. unfold sliceAt at 1. cbn [slices]. apply OT. intros ->. apply NT, (nth_in _ _ _ _ E).
Qed.

Lemma find_ok : forall l b n k, findNode l b n = Some k -> exists m, b <= k /\ nth_error l (k - b) = Some m /\ oname m = oname n /\ odims m = odims n /\ sameKey (okey m) (okey n) = true.
Proof.
  induction l as [|m l IH]; intros b n k H; [discriminate|]. cbn [findNode] in H. destruct (_ && _ && _) eqn:Q.
  - injection H as <-. apply andb_true_iff in Q. destruct Q as [Q K]. apply andb_true_iff in Q. destruct Q as [Q D]. apply String.eqb_eq in Q. apply Nat.eqb_eq in D.
    exists m. rewrite Nat.sub_diag. repeat split; [lia|assumption..].
  - destruct (IH (S b) n k H) as (m' & A & B & C). exists m'. split; [lia|]. replace (k - b) with (S (k - S b)) by lia. split; [exact B|exact C].
Qed.
Lemma sameKey_some : forall a sh, sameKey a (Some sh) = true -> match a with Some s => s | None => [] end = sh.
Proof.
  intros [s|] sh H; cbn in H; [|destruct sh; [reflexivity|discriminate]].
  destruct (list_eq_dec Z.eq_dec s sh) as [E|E]; [exact E|]. destruct s; discriminate.
Qed.
Lemma apply_named : forall st s d i, suits d (sliceAt st i) -> applyOpts st (mkOnode "" d None None) [OName s; OShape i] = Ok (mkOnode s d (Some i) None).
Proof.
  intros st s d i F. cbn [applyOpts applyOpt odims oslice okey oname].
  assert (Q : (isVec (sliceAt st i) && (d =? 1)) || (d =? List.length (sliceAt st i)) || ((d =? 0) && prodOne (sliceAt st i)) = true).
  { destruct F as [F|[[-> F]|[-> F]]]; [rewrite <- F, Nat.eqb_refl, orb_true_r; reflexivity| |].
    - rewrite (proj2 (isVec_spec _) F). reflexivity.
    - unfold prodOne. rewrite F. cbn. apply orb_true_r. }
  rewrite Q. reflexivity.
Qed.

(** Options of its own for every construction: the node named [s] has the shape asked for,
    whether it was there already or not; no node and no tensor changes its shape. *)
Theorem C90_build : forall st s d sh st1 o, healthy st -> suits d sh -> withShapeOpt st sh = (st1, o) ->
  exists st2 k, newTensor st1 d [OName s; o] = Ok (st2, k) /\ shapeOf st2 k = Some sh /\ keepsShapes st st2 /\ healthy st2
    /\ exists n, nth_error (onodes st2) k = Some n /\ oname n = s /\ odims n = d.
Proof.
  intros st s d sh st1 o H F W. unfold NodeOptModel.withShapeOpt in W. destruct (borrowInts st sh) as [st1' i] eqn:B. injection W as -> <-.
  pose proof (borrow_keeps _ _ _ _ H B) as K1. destruct (borrow_ok _ _ _ _ H B) as (H1 & L1 & C1 & P1 & ON & TS & NN & NT & _).
  unfold newTensor. rewrite <- C1 in F. rewrite (apply_named st1 s d i F). cbn [oname odims oslice option_map]. rewrite C1.
  destruct (findNode _ 0 _) as [k|] eqn:FN.
  - destruct (find_ok _ _ _ _ FN) as (m & _ & M & NM & DM & KM). rewrite Nat.sub_0_r in M. cbn [oname odims okey] in NM, DM, KM.
    assert (NN1 : forall n, In n (onodes st1) -> oslice n <> Some i) by (rewrite ON; exact NN).
    assert (NT1 : ~ In i (tshape st1)) by (rewrite TS; exact NT).
    destruct (return_ok st1 i H1 L1 P1 NN1 NT1) as [H2 K2]. eexists. exists k. split; [reflexivity|].
    assert (SH : shapeOf st1 k = Some sh).
    { unfold shapeOf. rewrite M. f_equal. rewrite (h_key st1 H1 m (nth_in _ _ _ _ M)) in KM. apply sameKey_some in KM.
      destruct (oslice m) as [j|]; exact KM. }
    split; [apply K2, SH|]. split; [split; intros a b Q; apply K2, K1, Q|]. split; [exact H2|]. exists m. split; [|split; [exact NM|exact DM]].
    cbn [returnInts]. destruct (8 <=? _); exact M.
  - eexists. exists (List.length (onodes st1)). split; [reflexivity|]. split; [|split; [|split]].
    + unfold shapeOf. cbn [onodes slices]. rewrite nth_error_app2, Nat.sub_diag by lia. cbn [nth_error oslice]. f_equal. exact C1.
    + split; [|intros t x Q; apply (proj2 K1) in Q; exact Q]. intros k x Q. apply (proj1 K1) in Q. unfold shapeOf in *. cbn [onodes].
      destruct (nth_error (onodes st1) k) as [n|] eqn:E; [|discriminate]. rewrite nth_error_app1 by (apply nth_error_Some; congruence). rewrite E. exact Q.
    + destruct H1 as [HK HP HN HT HO]. constructor; cbn [slices ipool tshape onodes]; [|exact HP| |exact HT|exact HO].
      * intros n I. apply in_app_or in I. destruct I as [I|[<-|[]]]; [apply HK, I|]. cbn [okey oslice option_map]. f_equal. symmetry. exact C1.
      * intros n j I O. apply in_app_or in I. destruct I as [I|[<-|[]]]; [apply (HN n j I O)|]. cbn [oslice] in O. injection O as <-. split; [exact L1|exact P1].
    + eexists. cbn [onodes]. rewrite nth_error_app2, Nat.sub_diag by lia. split; [reflexivity|]. split; reflexivity.
Qed.

(** Any number of constructions, each with its own options. *)
Fixpoint buildAll (st : ost) (rs : list (string * nat * list Z)) : res (ost * list nat) :=
  match rs with
  | [] => Ok (st, [])
  | (s, d, sh) :: rs' =>
      let (st1, o) := withShapeOpt st sh in
      match newTensor st1 d [OName s; o] with
      | Ok (st2, k) => match buildAll st2 rs' with Ok (st3, ks) => Ok (st3, k :: ks) | e => e end
      | Err => Err | Panic => Panic
      end
  end.
Theorem C90_history : forall rs st, healthy st -> (forall s d sh, In (s, d, sh) rs -> suits d sh) ->
  exists st' ks, buildAll st rs = Ok (st', ks) /\ keepsShapes st st' /\ healthy st' /\ List.length ks = List.length rs
    /\ forall j s d sh, nth_error rs j = Some (s, d, sh) -> exists k, nth_error ks j = Some k /\ shapeOf st' k = Some sh.
Proof.
  induction rs as [|[[s d] sh] rs IH]; intros st H F.
  - exists st, []. split; [reflexivity|]. split; [split; auto|]. split; [exact H|]. split; [reflexivity|]. intros [|j]; discriminate.
  - cbn [buildAll]. destruct (withShapeOpt st sh) as [st1 o] eqn:W.
    destruct (C90_build st s d sh st1 o H (F s d sh (or_introl eq_refl)) W) as (st2 & k & N & SH & KE & H2 & _). rewrite N.
    destruct (IH st2 H2) as (st3 & ks & B & K3 & H3 & LN & AL); [intros a b c I; apply (F a b c); right; exact I|]. rewrite B.
    exists st3, (k :: ks). split; [reflexivity|]. split; [split; intros a b Q; apply K3, KE, Q|]. split; [exact H3|]. split; [cbn; rewrite LN; reflexivity|].
    intros [|j] s' d' sh' E; [|apply (AL j s' d' sh' E)]. cbn in E. injection E as <- <- <-. exists k. split; [reflexivity|]. apply K3, SH.
Qed.

Lemma zero_map : forall l : list Z, map (fun _ => 0%Z) l = zeros (List.length l).
Proof. induction l as [|x l IH]; cbn; [reflexivity|]. rewrite IH. reflexivity. Qed.
Lemma return_small : forall st i, List.length (sliceAt st i) < 8 ->
  returnInts st (Some i) = mkOst (upd (slices st) i (zeros (List.length (sliceAt st i)))) (ipool st ++ [i]) (tshape st) (onodes st).
Proof. intros st i L. cbn [returnInts]. assert (Q : (8 <=? List.length (sliceAt st i)) = false) by (apply Nat.leb_gt; exact L). rewrite Q, zero_map. reflexivity. Qed.
Lemma find_last : forall l b n m, findNode l b n = None -> oname m = oname n -> odims m = odims n -> okey m = okey n ->
  findNode (l ++ [m]) b n = Some (b + List.length l).
Proof.
  induction l as [|x l IH]; intros b n m H A B C; cbn [findNode app List.length] in *.
  - rewrite A, B, C, String.eqb_refl, Nat.eqb_refl. assert (Q : sameKey (okey n) (okey n) = true).
    { destruct (okey n) as [s|]; [|reflexivity]. cbn. destruct (list_eq_dec Z.eq_dec s s); [destruct s; reflexivity|contradiction]. }
    rewrite Q. cbn [andb]. f_equal. lia.
  - destruct (_ && _ && _); [discriminate|]. rewrite (IH (S b) n m H A B C). f_equal. lia.
Qed.

(** The same options used for the same construction a second time: the second call returns
    the node of the first, whose shape is now zero along every axis. *)
Theorem C90_option_reuse_refuted : forall st s d sh st1 o st2 k, healthy st -> suits d sh -> List.length sh < 8 -> withShapeOpt st sh = (st1, o) ->
  newTensor st1 d [OName s; o] = Ok (st2, k) -> k = List.length (onodes st) ->
  shapeOf st2 k = Some sh /\ exists st3, newTensor st2 d [OName s; o] = Ok (st3, k) /\ shapeOf st3 k = Some (zeros (List.length sh)).
Proof.
  intros st s d sh st1 o st2 k H F L8 W N K. pose proof (C90_build st s d sh st1 o H F W) as (st2' & k' & N' & SH & _). rewrite N in N'. injection N' as <- <-. split; [exact SH|].
  unfold NodeOptModel.withShapeOpt in W. destruct (borrowInts st sh) as [st1' i] eqn:B. injection W as -> <-.
  destruct (borrow_ok _ _ _ _ H B) as (H1 & L1 & C1 & P1 & ON & TS & NN & NT & _).
  assert (F1 : suits d (sliceAt st1 i)) by (rewrite C1; exact F).
  unfold newTensor in N. rewrite (apply_named st1 s d i F1) in N. cbn [oname odims oslice option_map] in N.
  destruct (findNode (onodes st1) 0 _) as [k0|] eqn:FN.
  { exfalso. injection N as _ E. destruct (find_ok _ _ _ _ FN) as (m & _ & M & _). rewrite Nat.sub_0_r in M. assert (X : k0 < List.length (onodes st1)) by (apply nth_error_Some; congruence). rewrite ON in X. lia. }
  injection N as <- _. assert (F2 : suits d (sliceAt (mkOst (slices st1) (ipool st1) (tshape st1) (onodes st1 ++ [mkOnode s d (Some i) (Some (sliceAt st1 i))])) i)) by exact F1.
  unfold newTensor. rewrite (apply_named _ s d i F2). cbn [oname odims oslice option_map].
  pose proof (find_last (onodes st1) 0 _ (mkOnode s d (Some i) (Some (sliceAt st1 i))) FN eq_refl eq_refl eq_refl) as FL.
  match goal with |- context [findNode ?l 0 ?x] => change (findNode l 0 x) with (findNode (onodes st1 ++ [mkOnode s d (Some i) (Some (sliceAt st1 i))]) 0 (mkOnode s d (Some i) (Some (sliceAt st1 i)))) end.
  rewrite FL. cbn [Nat.add]. rewrite ON, <- K.
  eexists. split; [reflexivity|]. rewrite return_small by (change (List.length (sliceAt st1 i) < 8); rewrite C1; exact L8).
  unfold shapeOf. cbn [onodes slices]. rewrite K, <- ON, nth_error_app2, Nat.sub_diag by lia. cbn [nth_error oslice]. f_equal. unfold sliceAt at 1. cbn [slices]. rewrite upd_same by exact L1.
  change (zeros (List.length (sliceAt st1 i)) = zeros (List.length sh)). rewrite C1. reflexivity.
Qed.

(** The same with a node that takes its shape from the value it is given: made a second time
    under the same name, the caller's tensor has its shape zeroed. *)
Theorem C90_value_reuse_refuted : forall st s t i, healthy st -> nth_error (tshape st) t = Some i -> List.length (sliceAt st i) < 8 ->
  forall st1 k, newTensor st (List.length (sliceAt st i)) [OName s; OValue t] = Ok (st1, k) -> k = List.length (onodes st) ->
  tensorShape st1 t = Some (sliceAt st i)
  /\ exists st2, newTensor st1 (List.length (sliceAt st i)) [OName s; OValue t] = Ok (st2, k) /\ tensorShape st2 t = Some (zeros (List.length (sliceAt st i))).
Proof.
  intros st s t i H T L8 st1 k N K. set (d := List.length (sliceAt st i)) in *.
  assert (AP : forall st', tshape st' = tshape st -> sliceAt st' i = sliceAt st i -> applyOpts st' (mkOnode "" d None None) [OName s; OValue t] = Ok (mkOnode s d (Some i) None)).
  { intros st' TS SL. cbn [applyOpts applyOpt odims oslice okey oname]. rewrite TS, T, SL. fold d. rewrite Nat.eqb_refl. reflexivity. }
  unfold newTensor in N. rewrite (AP st eq_refl eq_refl) in N. cbn [oname odims oslice option_map] in N.
  destruct (findNode (onodes st) 0 _) as [k0|] eqn:FN.
  { exfalso. injection N as _ E. destruct (find_ok _ _ _ _ FN) as (m & _ & M & _). rewrite Nat.sub_0_r in M. assert (X : k0 < List.length (onodes st)) by (apply nth_error_Some; congruence). lia. }
  injection N as <- _. split; [unfold tensorShape; cbn [tshape]; rewrite T; reflexivity|].
  unfold newTensor. rewrite AP by reflexivity. cbn [oname odims oslice option_map onodes].
  pose proof (find_last (onodes st) 0 _ (mkOnode s d (Some i) (Some (sliceAt st i))) FN eq_refl eq_refl eq_refl) as FL.
  match goal with |- context [findNode ?l 0 ?x] => change (findNode l 0 x) with (findNode (onodes st ++ [mkOnode s d (Some i) (Some (sliceAt st i))]) 0 (mkOnode s d (Some i) (Some (sliceAt st i)))) end.
  rewrite FL. cbn [Nat.add]. rewrite <- K.
  eexists. split; [reflexivity|]. rewrite return_small by exact L8.
  unfold tensorShape. cbn [tshape slices]. rewrite T. cbn [option_map]. f_equal.
  unfold sliceAt at 1. cbn [slices]. rewrite upd_same by (apply (h_tens st H), (nth_in _ _ _ _ T)). reflexivity.
Qed.

(** NewConstant of a tensor with its shape given as an option makes a constant of shape zero
    along every axis, whose slice is in the pool while in use. *)
Theorem C90_constant_refuted : forall st t ts sh st1 o, healthy st -> nth_error (tshape st) t = Some ts -> List.length sh = List.length (sliceAt st ts) -> List.length sh < 8 ->
  withShapeOpt st sh = (st1, o) ->
  exists st2 i, newConstant st1 t [o] = Ok (st2, Some i) /\ sliceAt st2 i = zeros (List.length sh) /\ In i (ipool st2) /\ i < List.length (slices st2).
Proof.
  intros st t ts sh st1 o H T LE L8 W. unfold NodeOptModel.withShapeOpt in W. destruct (borrowInts st sh) as [st1' i] eqn:B. injection W as -> <-.
  destruct (borrow_ok _ _ _ _ H B) as (H1 & L1 & C1 & P1 & ON & TS & NN & NT & OT).
  destruct (h_tens st H ts (nth_in _ _ _ _ T)) as [LT NPT].
  assert (NE : ts <> i) by (intros ->; apply NT, (nth_in _ _ _ _ T)).
  destruct (OT ts LT NE NPT) as (ST & NP1 & LT1).
  unfold NodeOptModel.newConstant. rewrite TS, T, ST. destruct (borrowInts st1 (sliceAt st ts)) as [st2 own] eqn:B2.
  destruct (borrow_ok _ _ _ _ H1 B2) as (H2 & L2 & C2 & P2 & ON2 & TS2 & NN2 & NT2 & OT2).
  cbn [dummyOpts dummyOpt]. set (st3 := returnInts st2 (Some i)).
  assert (NI : i <> own).
  { intros ->. unfold NodeOptModel.borrowInts in B2. clear - B2 L1 P1.
    assert (X : forall A (a b : A) c, (a, c) = (b, own) -> c = own) by (intros; congruence).
    destruct (8 <=? _); [injection B2 as _ E; lia|]. destruct (pick _ _) as [p|]; [|injection B2 as _ E; lia].
    destruct (existsb _ _) eqn:EX; [|injection B2 as _ E; lia]. injection B2 as _ <-. apply existsb_exists in EX. destruct EX as (q & Q & E). apply Nat.eqb_eq in E. subst q. apply filter_In in Q. apply P1, Q. }
  destruct (OT2 i L1 NI P1) as (SI & NPI & LI).
  assert (NTS : own <> ts) by (intros ->; apply NT2; rewrite TS; apply (nth_in _ _ _ _ T)).
  destruct (OT2 ts LT1 (fun E => NTS (eq_sym E)) NP1) as (STS & _ & _).
  assert (Q : (8 <=? List.length (sliceAt st2 i)) = false) by (rewrite SI, C1; apply Nat.leb_gt; exact L8).
  assert (E3 : st3 = mkOst (upd (slices st2) i (zeros (List.length sh))) (ipool st2 ++ [i]) (tshape st2) (onodes st2)).
  { unfold st3. cbn [returnInts]. rewrite Q, SI, C1, zero_map. reflexivity. }
  assert (S3i : sliceAt st3 i = zeros (List.length sh)) by (rewrite E3; unfold sliceAt; cbn [slices]; apply upd_same, LI).
  assert (S3o : sliceAt st3 own = sliceAt st ts) by (rewrite E3; unfold sliceAt; cbn [slices]; rewrite upd_other by exact NI; exact C2).
  assert (S3t : sliceAt st3 ts = sliceAt st ts).
  { rewrite E3; unfold sliceAt at 1; cbn [slices]. rewrite upd_other by congruence. change (sliceAt st2 ts = sliceAt st ts). congruence. }
  assert (T3 : nth_error (tshape st3) t = Some ts) by (rewrite E3; cbn [tshape]; rewrite TS2, TS; exact T).
  cbn [applyOpts applyOpt odims oslice okey oname]. rewrite S3o, Nat.eqb_refl, orb_true_r. cbn [orb]. cbn [applyOpts applyOpt odims oslice okey oname].
  rewrite T3, S3t, Nat.eqb_refl. cbn [applyOpts applyOpt odims oslice okey oname]. rewrite S3o, S3i. unfold zeros. rewrite repeat_length, LE, Nat.eqb_refl, orb_true_r. cbn [orb].
  exists st3, i. split; [reflexivity|]. split; [rewrite S3i, LE; reflexivity|]. rewrite E3. cbn [ipool slices]. rewrite upd_length. split; [apply in_or_app; right; left; reflexivity|exact LI].
Qed.
(** Such a slice can be handed out again: the next shape of as many axes is then the
    constant's shape too. *)
Theorem C90_constant_reused_refuted : forall st i sh n, In i (ipool st) -> i < List.length (slices st) -> List.length sh < 8 -> List.length (sliceAt st i) = List.length sh ->
  (forall l, pick n l = Some i) -> n = List.length sh ->
  exists st1, withShapeOpt st sh = (st1, OShape i) /\ sliceAt st1 i = sh.
Proof.
  intros st i sh n I LI L8 LS PK N. unfold NodeOptModel.withShapeOpt, NodeOptModel.borrowInts. assert (Q : (8 <=? List.length sh) = false) by (apply Nat.leb_gt; exact L8). rewrite Q.
  rewrite <- N, PK, N. assert (EX : existsb (Nat.eqb i) (filter (fun j => List.length (sliceAt st j) =? List.length sh) (ipool st)) = true).
  { apply existsb_exists. exists i. split; [apply filter_In; split; [exact I|apply Nat.eqb_eq, LS]|apply Nat.eqb_refl]. }
  rewrite EX. eexists. split; [reflexivity|]. unfold sliceAt. cbn [slices]. apply upd_same, LI.
Qed.
(** Two shapes given to NewConstant must suit each other, whatever the tensor. *)
Theorem C90_constant_two_shapes : forall st t ts i j, healthy st -> nth_error (tshape st) t = Some ts ->
  i < List.length (slices st) -> ~ In i (ipool st) -> j < List.length (slices st) -> ~ In j (ipool st) ->
  ~ suits (List.length (sliceAt st i)) (sliceAt st j) -> newConstant st t [OShape i; OShape j] = Panic.
Proof.
  intros st t ts i j H T Li Pi Lj Pj N. unfold NodeOptModel.newConstant. rewrite T.
  destruct (borrowInts st (sliceAt st ts)) as [st1 own] eqn:B.
  assert (K : forall x, x < List.length (slices st) -> ~ In x (ipool st) -> x = own \/ sliceAt st1 x = sliceAt st x).
  { intros x Lx Px. destruct (Nat.eq_dec x own) as [E|E]; [left; exact E|right].
    destruct (borrow_ok _ _ _ _ H B) as (_ & _ & _ & _ & _ & _ & _ & _ & OT). apply (OT x Lx E Px). }
  assert (NO : forall x, x < List.length (slices st) -> ~ In x (ipool st) -> x <> own).
  { intros x Lx Px ->. unfold NodeOptModel.borrowInts in B.
    destruct (8 <=? _); [injection B as _ E; lia|]. destruct (pick _ _) as [p|]; [|injection B as _ E; lia].
    destruct (existsb _ _) eqn:EX; [|injection B as _ E; lia]. injection B as _ <-. apply existsb_exists in EX. destruct EX as (q & Q & E).
    apply Nat.eqb_eq in E. subst q. apply filter_In in Q. apply Px, Q. }
  cbn [dummyOpts dummyOpt].
  destruct (K i Li Pi) as [E|Ei]; [exfalso; exact (NO i Li Pi E)|]. destruct (K j Lj Pj) as [E|Ej]; [exfalso; exact (NO j Lj Pj E)|].
  rewrite Ei, Ej.
  assert (Q : (isVec (sliceAt st j) && (List.length (sliceAt st i) =? 1)) || (List.length (sliceAt st i) =? List.length (sliceAt st j)) || ((List.length (sliceAt st i) =? 0) && prodOne (sliceAt st j)) = false).
  { apply not_true_is_false. rewrite !orb_true_iff, !andb_true_iff, !Nat.eqb_eq, isVec_spec. unfold prodOne. rewrite Z.eqb_eq.
    intro X. apply N. unfold suits. intuition. }
  rewrite Q. reflexivity.
Qed.
End C90.
Print Assumptions C90_build.
Print Assumptions C90_constant_two_shapes.
Print Assumptions C90_history.
Print Assumptions C90_option_reuse_refuted.
Print Assumptions C90_value_reuse_refuted.
Print Assumptions C90_constant_refuted.
Print Assumptions C90_constant_reused_refuted.

(** Cases: a graph with a tensor of shape [2;3]; the pool hands out what it has. *)
Local Open Scope string_scope.
Definition exPick (n : nat) (l : list nat) : option nat := match l with [] => None | i :: _ => Some i end.
Definition exSt : ost := mkOst [[2; 3]%Z; [0; 0]%Z] [1] [0] [].
Example C90_ex_healthy : healthy exSt.
Proof.
  constructor; cbn.
  - intros n [].
  - intros i [<-|[]]. lia.
  - intros n i [].
  - intros i [<-|[]]. split; [lia|]. intros [H|[]]. discriminate.
  - constructor; [intros []|constructor].
Qed.
Example C90_ex_history : exists st ks, buildAll exPick exSt [("a", 2, [2; 2]%Z); ("b", 1, [4; 1]%Z); ("a", 2, [2; 2]%Z); ("c", 2, [5; 6]%Z)] = Ok (st, ks)
  /\ ks = [0; 1; 0; 2] /\ map (shapeOf st) ks = [Some [2; 2]; Some [4; 1]; Some [2; 2]; Some [5; 6]]%Z /\ tensorShape st 0 = Some [2; 3]%Z.
Proof. eexists. eexists. split; [vm_compute; reflexivity|]. repeat split; vm_compute; reflexivity. Qed.
Example C90_ex_reuse : let (st1, o) := withShapeOpt exPick exSt [2; 2]%Z in
  match newTensor st1 2 [OName "a"; o] with
  | Ok (st2, k) => match newTensor st2 2 [OName "b"; o] with
                   | Ok (st3, _) => match newTensor st3 2 [OName "a"; o] with Ok (st4, k') => (k', shapeOf st4 0, shapeOf st4 1) | _ => (9, None, None) end
                   | _ => (9, None, None) end
  | _ => (9, None, None) end = (0, Some [0; 0]%Z, Some [0; 0]%Z).
Proof. vm_compute. reflexivity. Qed.
Example C90_ex_value : match newTensor exSt 2 [OName "w"; OValue 0] with
  | Ok (st1, k) => match newTensor st1 2 [OName "w"; OValue 0] with Ok (st2, k') => (k, k', tensorShape st2 0) | _ => (9, 9, None) end
  | _ => (9, 9, None) end = (0, 0, Some [0; 0]%Z).
Proof. vm_compute. reflexivity. Qed.
Example C90_ex_constant : let (st1, o) := withShapeOpt exPick exSt [2; 3]%Z in
  match newConstant exPick st1 0 [o] with
  | Ok (st2, Some i) => let (st3, o') := withShapeOpt exPick st2 [7; 8]%Z in (sliceAt st2 i, sliceAt st3 i)
  | _ => ([], []) end = ([0; 0], [7; 8])%Z.
Proof. vm_compute. reflexivity. Qed.
Example C90_ex_two_shapes : let st := mkOst [[2; 3]%Z; [2; 3]%Z; [6]%Z] [] [0] [] in
  ~ suits (List.length (sliceAt st 1)) (sliceAt st 2) /\ newConstant exPick st 0 [OShape 1; OShape 2] = Panic /\
  suits 0 [1; 1]%Z.
Proof.
  cbv zeta. split; [|split; [vm_compute; reflexivity|right; right; split; reflexivity]].
  intros [X|[[X _]|[X _]]]; discriminate X.
Qed.
