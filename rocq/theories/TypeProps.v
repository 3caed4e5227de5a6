(** C85: types and shapes of nodes. *)
From Coq Require Import List ZArith Bool Lia.
From Verif Require Import BroadcastModel BroadcastSpec BroadcastProofs NodeShapeModel ShapeGradModel ShapeGradSpec ShapeGradProofs ShapeGradSum ReduceModel ReduceSpec ReduceProofs ReduceProps TdotModel TdotSpec TdotLists TdotProofs LinAlgModel TypeModel TypeSpec.
Import ListNotations.
Local Open Scope Z_scope.

(** ** The type check *)
Lemma dtype_spec x y : dtype_eq x y = true <-> x = y.
Proof.
  destruct x, y; cbn [dtype_eq]; split; intro H; try discriminate H; try reflexivity; try (injection H as ->; apply Nat.eqb_refl).
  apply Nat.eqb_eq in H. subst. reflexivity.
Qed.
Lemma dtype_refl x : dtype_eq x x = true.
Proof. apply dtype_spec. reflexivity. Qed.
Lemma dtype_neq x y : x <> y -> dtype_eq x y = false.
Proof. intro H. apply not_true_iff_false. intro K. apply H, dtype_spec, K. Qed.
Lemma unify_dt x y : unify (Dt x) (Dt y) = if dtype_eq x y then Some [] else None.
Proof. reflexivity. Qed.
Lemma unify_ten m n x y : unify (Ten m (Dt x)) (Ten n (Dt y)) = if dtype_eq x y then Some [] else None.
Proof. cbn [unify tyEq]. destruct (dtype_eq x y); [|reflexivity]. cbn [andb]. destruct (m =? n); reflexivity. Qed.
Lemma unify_va t : (forall v, t <> Var v) -> unify t va = Some [(0%nat, t)].
Proof. intro H. destruct t; [exfalso; apply (H v); reflexivity|reflexivity|reflexivity]. Qed.
(** Two tensors against two tensor arguments: the numbers of axes play no role. *)
Lemma infer_tt m n d1 d2 x y ret : inferNodeType [Ten m va; Ten n va] ret [Ten d1 (Dt x); Ten d2 (Dt y)] = if dtype_eq y x then Some (applySub [(0%nat, Dt x)] ret) else None.
Proof.
  unfold inferNodeType. cbn [unifyArgs]. change (unify (Ten d1 (Dt x)) (applySub [] (Ten m va))) with (Some [(0%nat, Dt x)]). cbv iota. change ([] ++ [(0%nat, Dt x)]) with [(0%nat, Dt x)].
  change (applySub [(0%nat, Dt x)] (Ten n va)) with (Ten n (Dt x)). rewrite unify_ten. destruct (dtype_eq y x); reflexivity.
Qed.
Lemma infer_st n d x y ret : inferNodeType [va; Ten n va] ret [Dt x; Ten d (Dt y)] = if dtype_eq y x then Some (applySub [(0%nat, Dt x)] ret) else None.
Proof.
  unfold inferNodeType. cbn [unifyArgs]. change (unify (Dt x) (applySub [] va)) with (Some [(0%nat, Dt x)]). cbv iota. change ([] ++ [(0%nat, Dt x)]) with [(0%nat, Dt x)].
  change (applySub [(0%nat, Dt x)] (Ten n va)) with (Ten n (Dt x)). rewrite unify_ten. destruct (dtype_eq y x); reflexivity.
Qed.
Lemma infer_ts n d x y ret : inferNodeType [Ten n va; va] ret [Ten d (Dt x); Dt y] = if dtype_eq y x then Some (applySub [(0%nat, Dt x)] ret) else None.
Proof.
  unfold inferNodeType. cbn [unifyArgs]. change (unify (Ten d (Dt x)) (applySub [] (Ten n va))) with (Some [(0%nat, Dt x)]). cbv iota. change ([] ++ [(0%nat, Dt x)]) with [(0%nat, Dt x)].
  change (applySub [(0%nat, Dt x)] va) with (Dt x). rewrite unify_dt. destruct (dtype_eq y x); reflexivity.
Qed.
Lemma infer_ss x y ret : inferNodeType [va; va] ret [Dt x; Dt y] = if dtype_eq y x then Some (applySub [(0%nat, Dt x)] ret) else None.
Proof.
  unfold inferNodeType. cbn [unifyArgs]. change (unify (Dt x) (applySub [] va)) with (Some [(0%nat, Dt x)]). cbv iota. change ([] ++ [(0%nat, Dt x)]) with [(0%nat, Dt x)].
  change (applySub [(0%nat, Dt x)] va) with (Dt x). rewrite unify_dt. destruct (dtype_eq y x); reflexivity.
Qed.
Lemma infer_t n d x ret : inferNodeType [Ten n va] ret [Ten d (Dt x)] = Some (applySub [(0%nat, Dt x)] ret).
Proof. reflexivity. Qed.
Lemma infer_a d t ret : plain d t -> inferNodeType [va] ret [nty t] = Some (applySub [(0%nat, nty t)] ret).
Proof. intros [[-> _]|[-> _]]; reflexivity. Qed.
Lemma infer_aa d e x y ret : plain d x -> plain e y -> inferNodeType [va; va] ret [nty x; nty y] =
  if dtype_eq e d && Bool.eqb (isScalarTy (nty x)) (isScalarTy (nty y)) then Some (applySub [(0%nat, nty x)] ret) else None.
Proof.
  intros [[-> _]|[-> _]] [[-> _]|[-> _]]; unfold inferNodeType; cbn [unifyArgs isScalarTy Bool.eqb].
  - change (unify (Dt d) (applySub [] va)) with (Some [(0%nat, Dt d)]). cbv iota. change (applySub ([] ++ [(0%nat, Dt d)]) va) with (Dt d). rewrite unify_dt, andb_true_r. destruct (dtype_eq e d); reflexivity.
  - change (unify (Dt d) (applySub [] va)) with (Some [(0%nat, Dt d)]). cbv iota. rewrite andb_false_r. reflexivity.
  - change (unify (Ten (Z.of_nat (length (nsh x))) (Dt d)) (applySub [] va)) with (Some [(0%nat, Ten (Z.of_nat (length (nsh x))) (Dt d))]). cbv iota. rewrite andb_false_r. reflexivity.
  - change (unify (Ten (Z.of_nat (length (nsh x))) (Dt d)) (applySub [] va)) with (Some [(0%nat, Ten (Z.of_nat (length (nsh x))) (Dt d))]). cbv iota.
    change (applySub ([] ++ [(0%nat, Ten (Z.of_nat (length (nsh x))) (Dt d))]) va) with (Ten (Z.of_nat (length (nsh x))) (Dt d)). rewrite unify_ten, andb_true_r. destruct (dtype_eq e d); reflexivity.
Qed.

(** ** The check of the shape *)
Lemma nodeShape_same s : nodeShape false (Z.of_nat (length s)) s = Ok s.
Proof. unfold nodeShape. cbv zeta. rewrite Z.eqb_refl, orb_true_r. reflexivity. Qed.
Lemma nodeShape_scalar : nodeShape true 0 [] = Ok [].
Proof. reflexivity. Qed.
Definition fitting (d : dtype) (s : list Z) : node := Nd (match s with [] => Dt d | _ => Ten (Z.of_nat (length s)) (Dt d) end) s.
Lemma fitting_plain d s : plain d (fitting d s).
Proof. destruct s; [left|right]; split; try reflexivity. discriminate. Qed.
Lemma plain_fitting d n : plain d n -> n = fitting d (nsh n).
Proof. destruct n as [t s]. cbn [nsh]. intros [[H1 H2]|[H1 H2]]; cbn [nty nsh] in *; subst; [reflexivity|]. destruct s; [congruence|reflexivity]. Qed.
Lemma plain_scalar d n : plain d n -> isScalarTy (nty n) = Nat.eqb (length (nsh n)) 0.
Proof. intros [[-> ->]|[-> H]]; [reflexivity|]. destruct (nsh n); [congruence|reflexivity]. Qed.

(** ** Every node *)
(** Whatever the operator, its operands and the shape it infers: the type of the new node
    fits its shape (it is not a type variable, if the operator's result type has none but
    those bound). *)
Lemma node_ok t s s' : nodeShape (isScalarTy t) (dimsTy t) s = Ok s' -> (forall v, t <> Var v) -> fits (Nd t s').
Proof.
  unfold nodeShape. cbv zeta. intros H NV. destruct (((colVec s || rowVec s) && (dimsTy t =? 1) || (dimsTy t =? Z.of_nat (length s)) || (dimsTy t =? 0) && prodOne s)) eqn:E; [|discriminate H]. injection H as <-.
  unfold fits. cbn [nty nsh]. destruct t as [v|d|d u]; [exfalso; apply (NV v); reflexivity|reflexivity|]. cbn [isScalarTy dimsTy] in *.
  apply orb_true_iff in E. destruct E as [E|E]; [apply orb_true_iff in E; destruct E as [E|E]|].
  - right; left. apply andb_true_iff in E. destruct E as [E1 E2]. split; [lia|]. unfold column_or_row. apply orb_true_iff in E1. destruct s as [|a [|b [|c s]]]; cbn [colVec rowVec] in E1; destruct E1 as [E1|E1]; try discriminate E1; apply andb_true_iff in E1; destruct E1 as [E3 E4].
    + exists a. split; [lia|]. left. f_equal. f_equal. lia.
    + exists b. split; [lia|]. right. f_equal. lia.
  - left. lia.
  - right; right. apply andb_true_iff in E. destruct E as [E1 E2]. unfold prodOne in E2. lia.
Qed.
Theorem C85_every_node_fits : forall args ret shape children n, applyOp args ret shape children = Ok n ->
  (forall v, nty n <> Var v) -> fits n.
Proof.
  intros args ret shape children n H NV. unfold applyOp in H. destruct (inferNodeType args ret (map nty children)) as [t|]; [|discriminate H]. destruct shape as [s| |]; try discriminate H. cbn [bind] in H.
  destruct (nodeShape (isScalarTy t) (dimsTy t) s) as [s'| |] eqn:E; try discriminate H. injection H as <-. apply (node_ok t s s' E). exact NV.
Qed.

(** ** Operands of one dtype *)
Lemma app_sub_va d : applySub [(0%nat, d)] va = d.
Proof. reflexivity. Qed.
Lemma fit_build d s : bind (nodeShape (isScalarTy (nty (fitting d s))) (dimsTy (nty (fitting d s))) s) (fun s' => Ok (Nd (nty (fitting d s)) s')) = Ok (fitting d s).
Proof. destruct s as [|a s]; [reflexivity|]. unfold fitting. cbn [nty isScalarTy dimsTy]. rewrite nodeShape_same. reflexivity. Qed.
Lemma ewInfer_ne S T : S <> [] -> T <> [] -> ewiseInfer S T = if scalarEquiv S && scalarEquiv T then Ok S else if shapeEq S T then Ok (if Nat.ltb (length T) (length S) then S else T) else Err.
Proof. intros H1 H2. unfold ewiseInfer. destruct S; [congruence|]. destruct T; [congruence|]. reflexivity. Qed.
Lemma ewShape_ne S T : S <> [] -> T <> [] -> ewiseShape S T = if scalarEquiv S && scalarEquiv T then (if Nat.ltb (length S) (length T) then Panic else Ok S) else if shapeEq S T then Ok (if Nat.ltb (length T) (length S) then S else T) else Err.
Proof. intros H1 H2. unfold ewiseShape. destruct S; [congruence|]. destruct T; [congruence|]. reflexivity. Qed.
(** Elementwise operators: the node is the one of the shape modelled in ReduceModel.v, of
    the operands' dtype or Bool. *)
Theorem C85_elementwise : forall d x y bools, plain d x -> plain d y ->
  ewiseN bools x y = bind (ewiseShape (nsh x) (nsh y)) (fun s => Ok (fitting (if bools then BoolT else d) s)).
Proof.
  intros d x y bools HX HY. rewrite (plain_fitting _ _ HX), (plain_fitting _ _ HY). set (s := nsh x). set (t := nsh y). clearbody s t. clear x y HX HY.
  assert (BT : forall n, applySub [(0%nat, Dt d)] (if bools then Ten n (Dt BoolT) else Ten n va) = Ten n (Dt (if bools then BoolT else d))) by (intro; destruct bools; reflexivity).
  assert (BS : applySub [(0%nat, Dt d)] (if bools then Dt BoolT else va) = Dt (if bools then BoolT else d)) by (destruct bools; reflexivity).
  unfold ewiseN, applyOp. cbn [map nsh fitting]. change (nsh (fitting d s)) with s. change (nsh (fitting d t)) with t. unfold ewiseRet.
  destruct s as [|a s], t as [|b t].
  - cbn [fitting nty ewiseArgTy ewiseRetTy]. rewrite infer_ss, dtype_refl. destruct bools; reflexivity.
  - cbn [fitting nty ewiseArgTy ewiseRetTy]. replace (0 <=? Z.of_nat (length (b :: t))) with true by (symmetry; apply Z.leb_le, Nat2Z.is_nonneg). cbv iota. rewrite infer_st, dtype_refl, BT.
    replace (ewiseInfer [] (b :: t)) with (Ok (b :: t)) by (unfold ewiseInfer; destruct (_ && _); reflexivity). replace (ewiseShape [] (b :: t)) with (Ok (b :: t)) by (unfold ewiseShape; destruct (_ && _); reflexivity).
    cbn [bind isScalarTy dimsTy]. rewrite nodeShape_same. reflexivity.
  - cbn [fitting nty ewiseArgTy ewiseRetTy]. rewrite infer_ts, dtype_refl, BT.
    replace (ewiseInfer (a :: s) []) with (Ok (a :: s)) by (unfold ewiseInfer; destruct (_ && _); reflexivity).
    replace (ewiseShape (a :: s) []) with (Ok (a :: s)) by (unfold ewiseShape; cbn [length Nat.ltb Nat.leb]; destruct (_ && _); reflexivity).
    cbn [bind isScalarTy dimsTy]. rewrite nodeShape_same. reflexivity.
  - cbn [fitting nty ewiseArgTy ewiseRetTy]. set (S := a :: s). set (T := b :: t).
    replace (if bools then match (if Z.of_nat (length S) <=? Z.of_nat (length T) then Ten (Z.of_nat (length T)) va else Ten (Z.of_nat (length S)) va) with Ten d0 _ => Ten d0 (Dt BoolT) | _ => Dt BoolT end
             else (if Z.of_nat (length S) <=? Z.of_nat (length T) then Ten (Z.of_nat (length T)) va else Ten (Z.of_nat (length S)) va))
      with (if bools then Ten (Z.max (Z.of_nat (length S)) (Z.of_nat (length T))) (Dt BoolT) else Ten (Z.max (Z.of_nat (length S)) (Z.of_nat (length T))) va)
      by (destruct (Z.leb_spec (Z.of_nat (length S)) (Z.of_nat (length T))); destruct bools; f_equal; lia).
    rewrite infer_tt, dtype_refl, BT. cbn [isScalarTy dimsTy].
    assert (NS : S <> []) by (unfold S; discriminate). assert (NT : T <> []) by (unfold T; discriminate).
    assert (FT : forall e U, U <> [] -> fitting e U = Nd (Ten (Z.of_nat (length U)) (Dt e)) U) by (intros e U HU; destruct U; [congruence|reflexivity]).
    rewrite ewInfer_ne, ewShape_ne by assumption. clearbody S T. destruct (scalarEquiv S && scalarEquiv T) eqn:SE.
    + cbn [bind]. destruct (Nat.ltb_spec (length S) (length T)) as [L|L].
      * cbn [bind]. apply andb_true_iff in SE. destruct SE as [S1 S2]. unfold nodeShape. cbv zeta.
        assert (C : colVec S || rowVec S = false). { unfold scalarEquiv in S1. destruct S as [|p [|q [|r S']]]; cbn [colVec rowVec forallb] in *; try reflexivity. apply andb_true_iff in S1. destruct S1 as [P1 P2]. replace (1 <? p) with false by lia. replace (1 <? q) with false by lia. rewrite !andb_false_r. reflexivity. }
        rewrite C. cbn [andb orb]. replace (Z.max (Z.of_nat (length S)) (Z.of_nat (length T)) =? Z.of_nat (length S)) with false by lia.
        replace (Z.max (Z.of_nat (length S)) (Z.of_nat (length T)) =? 0) with false by lia. reflexivity.
      * replace (Z.max (Z.of_nat (length S)) (Z.of_nat (length T))) with (Z.of_nat (length S)) by lia. rewrite nodeShape_same. cbn [bind]. rewrite FT by assumption. reflexivity.
    + destruct (shapeEq S T); [|reflexivity]. destruct (Nat.ltb_spec (length T) (length S)) as [L|L]; cbn [bind].
      * replace (Z.max (Z.of_nat (length S)) (Z.of_nat (length T))) with (Z.of_nat (length S)) by lia. rewrite nodeShape_same. cbn [bind]. rewrite FT by assumption. reflexivity.
      * replace (Z.max (Z.of_nat (length S)) (Z.of_nat (length T))) with (Z.of_nat (length T)) by lia. rewrite nodeShape_same. cbn [bind]. rewrite FT by assumption. reflexivity.
Qed.
Print Assumptions C85_elementwise.
(** Not both single entries, or the first at least as many axes, or a scalar: no crash. *)
Theorem C85_elementwise_crash : forall d x y bools, plain d x -> plain d y ->
  (ewiseN bools x y = Panic <-> Forall (eq 1) (nsh x) /\ Forall (eq 1) (nsh y) /\ (0 < length (nsh x) < length (nsh y))%nat).
Proof.
  intros d x y bools HX HY. rewrite (C85_elementwise d x y bools HX HY). set (s := nsh x). set (t := nsh y). clearbody s t.
  assert (SO : forall u, scalarEquiv u = true <-> Forall (eq 1) u) by (intro u; unfold scalarEquiv; rewrite forallb_forall, Forall_forall; split; intros H z Hz; specialize (H z Hz); [apply Z.eqb_eq in H; auto|apply Z.eqb_eq; auto]).
  destruct s as [|a s].
  - split; [|cbn [length]; lia]. replace (ewiseShape [] t) with (Ok t) by (unfold ewiseShape; destruct t; [reflexivity|]; destruct (_ && _); reflexivity). intro K; discriminate K.
  - destruct t as [|b t].
    + split; [|cbn [length]; lia]. replace (ewiseShape (a :: s) []) with (Ok (a :: s)) by (unfold ewiseShape; cbn [length Nat.ltb Nat.leb]; destruct (_ && _); reflexivity). intro K; discriminate K.
    + rewrite ewShape_ne by discriminate. rewrite <- (SO (a :: s)), <- (SO (b :: t)). destruct (scalarEquiv (a :: s)), (scalarEquiv (b :: t)); cbn [andb].
      * destruct (Nat.ltb_spec (length (a :: s)) (length (b :: t))) as [L|L]; cbn [bind]; split; intro K; try discriminate K; try reflexivity; [|destruct K as [_ [_ K]]; lia].
        split; [reflexivity|]. split; [reflexivity|]. cbn [length] in *. lia.
      * split; [|intros [_ [K _]]; discriminate K]. destruct (shapeEq _ _); intro K; discriminate K.
      * split; [|intros [K _]; discriminate K]. destruct (shapeEq _ _); intro K; discriminate K.
      * split; [|intros [K _]; discriminate K]. destruct (shapeEq _ _); intro K; discriminate K.
Qed.
Print Assumptions C85_elementwise_crash.

(** Operands of different dtypes are refused by every operator with two operands. *)
Lemma plain_cases d n : plain d n -> (nty n = Dt d /\ nsh n = []) \/ (exists a s, nsh n = a :: s /\ nty n = Ten (Z.of_nat (length (a :: s))) (Dt d)).
Proof. intros [[H1 H2]|[H1 H2]]; [left; auto|]. right. destruct (nsh n) as [|a s] eqn:E; [congruence|]. exists a, s. auto. Qed.
Lemma mixed_tt d e x y m n ret sh : d <> e -> plain d x -> plain e y -> applyOp [Ten m va; Ten n va] ret sh [x; y] = Err.
Proof.
  intros NE HX HY. unfold applyOp. cbn [map]. destruct (plain_cases _ _ HX) as [[-> _]|[a [s [_ ->]]]]; [reflexivity|]. destruct (plain_cases _ _ HY) as [[-> _]|[b [t [_ ->]]]].
  - unfold inferNodeType. cbn [unifyArgs]. change (unify (Ten (Z.of_nat (length (a :: s))) (Dt d)) (applySub [] (Ten m va))) with (Some [(0%nat, Dt d)]). cbv iota. reflexivity.
  - rewrite infer_tt, dtype_neq by congruence. reflexivity.
Qed.
Lemma mixed_ewise d e x y bools : d <> e -> plain d x -> plain e y -> ewiseN bools x y = Err.
Proof.
  intros NE HX HY. unfold ewiseN, applyOp. cbn [map].
  destruct (plain_cases _ _ HX) as [[-> _]|[a [s [_ ->]]]], (plain_cases _ _ HY) as [[-> _]|[b [t [_ ->]]]]; cbn [ewiseArgTy]; rewrite ?infer_ss, ?infer_st, ?infer_ts, ?infer_tt, dtype_neq by congruence; reflexivity.
Qed.
Theorem C85_mixed_dtypes_refused : forall d e x y, d <> e -> plain d x -> plain e y ->
  (forall bools, ewiseN bools x y = Err) /\ betweenN x y = Err /\ mulN x y = Err /\ (forall ta tb, batchedN ta tb x y = Err) /\ outerN x y = Err /\
  (forall ta tb, matMulN ta tb x y = Err) /\ (forall aAxes bAxes, tensordotN aAxes bAxes x y = Err) /\ (forall axis, concatN axis [x; y] = Err).
Proof.
  intros d e x y NE HX HY. assert (AA : forall sh, applyOp [va; va] va sh [x; y] = Err).
  { intro sh. unfold applyOp. cbn [map]. rewrite (infer_aa d e) by assumption. rewrite dtype_neq by congruence. reflexivity. }
  split; [intro; apply (mixed_ewise d e); assumption|]. split; [apply AA|]. split.
  { unfold mulN. destruct (isScalarTy (nty x) || isScalarTy (nty y)); [apply (mixed_ewise d e); assumption|]. destruct (isVectorTy (nty x) && isVectorTy (nty y)); [apply (mixed_tt d e); assumption|].
    destruct (isVectorTy (nty x) && isMatrixN y); [apply (mixed_tt e d); auto|]. destruct (isMatrixN x && isVectorTy (nty y)); [apply (mixed_tt d e); assumption|]. destruct (isMatrixN x && isMatrixN y); [apply (mixed_tt d e); assumption|]. reflexivity. }
  split; [intros; apply AA|]. split; [apply (mixed_tt d e); assumption|]. split; [intros; apply (mixed_tt d e); assumption|]. split; [intros; apply (mixed_tt d e); assumption|].
  intro axis. unfold concatN. destruct (negb _); [reflexivity|]. destruct (Nat.eqb _ _); [reflexivity|]. destruct (_ <=? _); [reflexivity|]. cbn [length repeat]. apply (mixed_tt d e); assumption.
Qed.
Print Assumptions C85_mixed_dtypes_refused.

(** ** Reductions *)
Lemma ret_ty d along : snd (reductionTy d along) = if fst (reductionRet d along) then va else Ten (snd (reductionRet d along)) va.
Proof. unfold reductionTy, reductionRet. cbv zeta. destruct (_ || _); [reflexivity|]. destruct (Nat.eqb _ _); reflexivity. Qed.
Lemma ret_zero d along : fst (reductionRet d along) = true -> snd (reductionRet d along) = 0.
Proof. unfold reductionRet. cbv zeta. destruct (_ || _); [reflexivity|]. destruct (Nat.eqb _ _); intro K; discriminate K. Qed.
Lemma fst_ty d along : exists m, fst (reductionTy d along) = Ten m va.
Proof. unfold reductionTy. cbv zeta. eexists. destruct (_ || _); [reflexivity|]. destruct (Nat.eqb _ _); reflexivity. Qed.
(** The node of Sum or Max along the axes has the shape of ShapeGradModel.v. *)
Lemma reduce_node d x along : plain d x -> nsh x <> [] -> along <> [] ->
  reduceN x along = bind (reductionShape along (nsh x)) (fun s => Ok (Nd (if fst (reductionRet (length (nsh x)) along) then Dt d else Ten (snd (reductionRet (length (nsh x)) along)) (Dt d)) s)).
Proof.
  intros HX NE NA. unfold reduceN. rewrite (plain_scalar _ _ HX). destruct (plain_cases _ _ HX) as [[_ K]|[a [s [Es Et]]]]; [congruence|]. rewrite Es. cbn [length Nat.eqb].
  destruct along as [|c along]; [congruence|]. set (al := c :: along). cbv zeta. unfold applyOp. cbn [map]. rewrite Et. destruct (fst_ty (S (length s)) al) as [m ->]. rewrite infer_t, ret_ty. unfold reductionShape. cbn [length].
  destruct (reductionInferShape al (a :: s)) as [s'| |]; cbn [bind]; try reflexivity. pose proof (ret_zero (S (length s)) al) as RZ.
  destruct (fst (reductionRet (S (length s)) al)); [rewrite (RZ eq_refl)|]; cbn [applySub va find fst snd Nat.eqb isScalarTy dimsTy]; destruct (nodeShape _ _ s'); reflexivity.
Qed.
(** Distinct axes: the node has the remaining axes, type and shape agree. *)
Theorem C85_reduction : forall d x along, plain d x -> reducible (nsh x) along ->
  reduceN x along = Ok (fitting d (without (axes_of (nsh x) along) 0 (nsh x))).
Proof.
  intros d x along HX HR. destruct (axes_facts _ _ HR) as [AN AF]. pose proof (axes_nodup _ _ HR) as ND. destruct HR as [HN [HP _]].
  assert (EA : reduceN x along = reduceN x (axes_of (nsh x) along)).
  { unfold reduceN, axes_of, iota. destruct (isScalarTy (nty x)); [reflexivity|]. destruct along; [|reflexivity]. destruct (nsh x) eqn:E; [congruence|]. reflexivity. }
  rewrite EA. set (axes := axes_of (nsh x) along) in *. clearbody axes. rewrite (reduce_node d) by assumption. rewrite ShapeGradSum.shape_ok by assumption. cbn [bind]. f_equal.
  pose proof (length_without axes (nsh x) ND AF) as L. set (w := without axes 0 (nsh x)) in *.
  assert (F : nodup Z.eq_dec (filter (fun axis => axis <? Z.of_nat (length (nsh x))) axes) = axes).
  { replace (filter _ axes) with axes; [apply nodup_fixed_point, ND|]. clear - AF. induction AF as [|a axes Ha _ IH]; cbn [filter]; [reflexivity|]. rewrite <- IH. replace (a <? Z.of_nat (length (nsh x))) with true by (symmetry; apply Z.ltb_lt; lia). reflexivity. }
  assert (L1 : (0 < length axes)%nat) by (destruct axes; [congruence|cbn [length]; lia]).
  unfold reductionRet, fitting. cbv zeta. rewrite F. replace (Nat.eqb (length axes) 0) with false by (symmetry; apply Nat.eqb_neq; lia). rewrite orb_false_r.
  destruct (Nat.eqb_spec (length (nsh x)) 1) as [E1|E1]; [|destruct (Nat.eqb_spec (length axes) (length (nsh x))) as [E2|E2]]; cbn [orb fst snd].
  - destruct w as [|q w]; [reflexivity|cbn [length] in L; lia].
  - destruct w as [|q w]; [reflexivity|cbn [length] in L; lia].
  - destruct w as [|q w]; [cbn [length] in L; lia|]. destruct (Nat.eqb_spec (length axes) (length (nsh x) - 1)) as [E3|E3]; cbn [fst snd]; f_equal; f_equal; lia.
Qed.
Print Assumptions C85_reduction.
(** Nothing to reduce, and no such axis: a scalar is its own sum, and asking for the size of
    an axis that is not there panics. *)
Theorem C85_no_such_axis : forall d x along axis,
  (nty x = Dt d -> reduceN x along = Ok x) /\ (plain d x -> (length (nsh x) <= axis)%nat -> sizeOfN axis x = Panic).
Proof.
  intros d x along axis. split.
  - intros E. unfold reduceN. rewrite E. reflexivity.
  - intros _ H. unfold sizeOfN. rewrite (proj2 (nth_error_None (nsh x) axis) H). reflexivity.
Qed.
Print Assumptions C85_no_such_axis.
Example C85_ex_no_such_axis : reduceN (Nd (Dt F64) []) [0] = Ok (Nd (Dt F64) []) /\ sizeOfN 2 (Nd (Ten 2 (Dt F64)) [2; 3]) = Panic.
Proof. split; reflexivity. Qed.
(** An axis named twice: with two or more axes left, none of size one, the call panics. *)
Lemma total_ge2 s : Forall (fun n => 2 <= n) s -> s <> [] -> 2 <= totalSize s.
Proof.
  intros H NE. destruct s as [|a s]; [congruence|]. clear NE. revert a H. induction s as [|b s IH]; intros a H.
  - apply Forall_inv in H. unfold totalSize. cbn. lia.
  - pose proof (Forall_inv H) as Ha. specialize (IH b (Forall_inv_tail H)). unfold totalSize in *. cbn [fold_right] in *. nia.
Qed.
Theorem C85_axis_twice_refuted : forall d x along, plain d x -> positive (nsh x) -> Forall (fun a => 0 <= a < Z.of_nat (length (nsh x))) along ->
  ~ NoDup along -> (length (nodup Z.eq_dec along) + 2 <= length (nsh x))%nat -> Forall (fun n => 2 <= n) (without along 0 (nsh x)) -> reduceN x along = Panic.
Proof.
  intros d x along HX HP HF ND LE H2. assert (NA : along <> []) by (intros ->; apply ND; constructor).
  assert (NE : nsh x <> []) by (intro K; rewrite K in LE; cbn [length] in LE; lia).
  rewrite (reduce_node d) by assumption. unfold reductionShape. rewrite infer_ok by assumption. cbn [bind].
  assert (F : filter (fun axis => axis <? Z.of_nat (length (nsh x))) along = along).
  { clear - HF. induction HF as [|a along Ha _ IH]; cbn [filter]; [reflexivity|]. rewrite IH. replace (a <? Z.of_nat (length (nsh x))) with true by (symmetry; apply Z.ltb_lt; lia). reflexivity. }
  assert (LN : (length (nodup Z.eq_dec along) < length along)%nat).
  { destruct (Nat.lt_ge_cases (length (nodup Z.eq_dec along)) (length along)) as [K|K]; [exact K|exfalso; apply ND]. apply (@NoDup_incl_NoDup _ (nodup Z.eq_dec along)); [apply NoDup_nodup|exact K|]. intros q Hq. apply nodup_In in Hq. exact Hq. }
  assert (L0 : (0 < length (nodup Z.eq_dec along))%nat).
  { destruct (nodup Z.eq_dec along) eqn:K; [|cbn [length]; lia]. exfalso. destruct along as [|c al]; [congruence|]. assert (I : In c (nodup Z.eq_dec (c :: al))) by (apply nodup_In; left; reflexivity). rewrite K in I. destruct I. }
  assert (LW : (length (without along 0 (nsh x)) + length (nodup Z.eq_dec along) = length (nsh x))%nat).
  { rewrite <- (without_ext (nodup Z.eq_dec along) along) by (intro q; apply nodup_In). apply length_without; [apply NoDup_nodup|]. apply Forall_forall. intros q Hq. rewrite Forall_forall in HF. apply HF. apply nodup_In in Hq. exact Hq. }
  unfold reductionRet. cbv zeta. rewrite F. replace (Nat.eqb (length (nsh x)) 1) with false by (symmetry; apply Nat.eqb_neq; lia). replace (Nat.eqb (length (nodup Z.eq_dec along)) 0) with false by (symmetry; apply Nat.eqb_neq; lia).
  replace (Nat.eqb (length (nodup Z.eq_dec along)) (length (nsh x))) with false by (symmetry; apply Nat.eqb_neq; lia). replace (Nat.eqb (length (nodup Z.eq_dec along)) (length (nsh x) - 1)) with false by (symmetry; apply Nat.eqb_neq; lia).
  cbn [orb fst snd]. set (w := without along 0 (nsh x)) in *. unfold nodeShape. cbv zeta.
  assert (C : colVec w || rowVec w = false).
  { destruct w as [|p [|q [|r w]]]; try reflexivity. cbn [colVec rowVec]. pose proof (Forall_inv H2) as P1. pose proof (Forall_inv (Forall_inv_tail H2)) as P2. cbv beta in P1, P2. replace (q =? 1) with false by lia. replace (p =? 1) with false by lia. reflexivity. }
  rewrite C. cbn [andb orb]. replace (_ =? Z.of_nat (length w)) with false by (symmetry; apply Z.eqb_neq; lia).
  assert (P : prodOne w = false). { unfold prodOne. apply Z.eqb_neq. pose proof (total_ge2 w H2). destruct w; [cbn [length] in LW; lia|]. specialize (H ltac:(discriminate)). lia. }
  rewrite P, andb_false_r. reflexivity.
Qed.
Print Assumptions C85_axis_twice_refuted.

(** ** Operators on shapes *)
Lemma apply_t d x n m s : plain d x -> nsh x <> [] -> s <> [] -> m = Z.of_nat (length s) -> applyOp [Ten n va] (Ten m va) (Ok s) [x] = Ok (fitting d s).
Proof.
  intros HX NX NS ->. destruct (plain_cases _ _ HX) as [[_ K]|[a [t [_ Et]]]]; [congruence|]. unfold applyOp. cbn [map]. rewrite Et, infer_t. cbn [bind applySub va find fst Nat.eqb isScalarTy dimsTy]. rewrite nodeShape_same. destruct s; [congruence|reflexivity].
Qed.
Lemma apply_ts d x n : plain d x -> nsh x <> [] -> applyOp [Ten n va] va (Ok []) [x] = Ok (fitting d []).
Proof. intros HX NX. destruct (plain_cases _ _ HX) as [[_ K]|[a [t [_ Et]]]]; [congruence|]. unfold applyOp. cbn [map]. rewrite Et. reflexivity. Qed.
Lemma apply_a d x s : plain d x -> length s = length (nsh x) -> applyOp [va] va (Ok s) [x] = Ok (fitting d s).
Proof.
  intros HX L. unfold applyOp. cbn [map]. rewrite (infer_a d) by exact HX. rewrite app_sub_va. cbn [bind]. destruct (plain_cases _ _ HX) as [[Et Es]|[a [t [Es Et]]]]; rewrite Et; rewrite Es in L; cbn [isScalarTy dimsTy].
  - destruct s; [reflexivity|discriminate L].
  - rewrite <- L, nodeShape_same. destruct s; [discriminate L|reflexivity].
Qed.
Lemma inside_tensor d x : plain d x -> nsh x <> [] -> isScalarTy (nty x) = false.
Proof. intros HX NX. rewrite (plain_scalar _ _ HX). destruct (nsh x); [congruence|reflexivity]. Qed.
(** One operand: pointwise functions, At, SizeOf, Transpose, Reshape and ConvType give a
    node whose type fits, of the operand's dtype (or the one converted to), whenever the
    shape is accepted. *)
Theorem C85_one_operand : forall d x, plain d x ->
  unaryN x = Ok (fitting d (nsh x)) /\
  (nsh x <> [] -> atN x = Ok (fitting d [])) /\
  (forall axis, (axis < length (nsh x))%nat -> sizeOfN axis x = Ok (fitting d [])) /\
  (forall pattern n, transposeN x pattern = Ok n -> n = fitting d (gather pattern (nsh x))) /\
  (forall pattern, safe (transposeN x pattern)) /\
  (forall to, reshapeN x to = bind (fst (reshapeCall (nsh x) to)) (fun to' => Ok (fitting d to'))) /\
  (forall e, convTypeN x d e = Ok (fitting e (nsh x))) /\
  (forall c e, c <> d -> convTypeN x c e = Err).
Proof.
  intros d x HX. split; [unfold unaryN; apply apply_a; [exact HX|reflexivity]|]. split; [intro NX; apply apply_ts; assumption|]. split.
  { intros axis HA. unfold sizeOfN. destruct (nth_error (nsh x) axis) eqn:E; [|apply nth_error_None in E; lia]. assert (NX : nsh x <> []) by (intro K; rewrite K in HA; cbn [length] in HA; lia).
    replace (match nsh x with [] => va | _ => Ten (Z.of_nat (length (nsh x))) va end) with (Ten (Z.of_nat (length (nsh x))) va) by (destruct (nsh x); [congruence|reflexivity]). apply apply_ts; assumption. }
  assert (TR : forall pattern, transposeN x pattern = Err \/ transposeN x pattern = Ok (fitting d (gather pattern (nsh x)))).
  { intro pattern. destruct (plain_cases _ _ HX) as [[Et Es]|[a [t [Es Et]]]].
    - left. unfold transposeN, applyOp. cbn [map]. rewrite Et. reflexivity.
    - assert (NX : nsh x <> []) by congruence. unfold transposeN. replace (match nsh x with [] => Err | _ => if negb (permOk pattern (length (nsh x))) || eqShape pattern (iota (length pattern)) then Err else Ok (permuteShape pattern (nsh x)) end)
        with (if negb (permOk pattern (length (nsh x))) || eqShape pattern (iota (length pattern)) then Err else Ok (permuteShape pattern (nsh x))) by (destruct (nsh x); [congruence|reflexivity]).
      destruct (permOk pattern (length (nsh x))) eqn:P; cbn [negb orb].
      + destruct (eqShape pattern (iota (length pattern))).
        * left. unfold applyOp. cbn [map]. rewrite Et, infer_t. reflexivity.
        * right. unfold permOk in P. apply andb_true_iff in P. destruct P as [P _]. apply andb_true_iff in P. destruct P as [P _]. apply Nat.eqb_eq in P. apply apply_t; try assumption; unfold permuteShape, gather; [|rewrite map_length; reflexivity].
          destruct pattern; [rewrite Es in P; discriminate P|discriminate].
      + left. unfold applyOp. cbn [map]. rewrite Et, infer_t. reflexivity. }
  split. { intros pattern n H. destruct (TR pattern) as [E|E]; rewrite E in H; [discriminate H|]. injection H as <-. reflexivity. }
  split. { intros pattern. destruct (TR pattern) as [E|E]; rewrite E; unfold safe; intro K; discriminate K. }
  split.
  { intro to. unfold reshapeN. destruct (fst (reshapeCall (nsh x) to)) as [to'| |]; cbn [bind]; try reflexivity. unfold reshapeTy. cbv zeta. destruct (Nat.eqb_spec (length (nsh x)) (length to')) as [L|L]; cbn [fst snd].
    - apply apply_a; [exact HX|auto].
    - destruct (plain_cases _ _ HX) as [[Et Es]|[a [t [Es Et]]]]; rewrite Es in *; unfold applyOp; cbn [map]; rewrite Et.
      + destruct to' as [|b to']; [exfalso; apply L; reflexivity|]. unfold inferNodeType. cbn [unifyArgs]. change (unify (Dt d) (applySub [] va)) with (Some [(0%nat, Dt d)]). cbv iota. cbn [applySub va find fst app Nat.eqb bind isScalarTy dimsTy]. rewrite nodeShape_same. reflexivity.
      + rewrite infer_t. destruct to' as [|b to']; [reflexivity|]. cbn [applySub va find fst app Nat.eqb bind isScalarTy dimsTy]. rewrite nodeShape_same. reflexivity. }
  split; [intro e|intros c e NE]; unfold convTypeN; cbv zeta; unfold applyOp; cbn [map]; destruct (plain_cases _ _ HX) as [[Et Es]|[a [t [Es Et]]]]; rewrite Es, Et.
  - unfold inferNodeType. cbn [unifyArgs applySub]. rewrite unify_dt, dtype_refl. reflexivity.
  - unfold inferNodeType. cbn [unifyArgs applySub]. rewrite unify_ten, dtype_refl. cbn [app applySub bind isScalarTy dimsTy]. rewrite nodeShape_same. reflexivity.
  - unfold inferNodeType. cbn [unifyArgs applySub]. rewrite unify_dt, dtype_neq by congruence. reflexivity.
  - unfold inferNodeType. cbn [unifyArgs applySub]. rewrite unify_ten, dtype_neq by congruence. reflexivity.
Qed.
Print Assumptions C85_one_operand.

(** ** Two operands *)
Lemma apply_tt d x y m n r s : plain d x -> plain d y -> nsh x <> [] -> nsh y <> [] -> applyOp [Ten m va; Ten n va] (match s with [] => va | _ => Ten r va end) (Ok s) [x; y] = if (r =? Z.of_nat (length s)) || match s with [] => true | _ => false end then Ok (fitting d s) else applyOp [Ten m va; Ten n va] (match s with [] => va | _ => Ten r va end) (Ok s) [x; y].
Proof.
  intros HX HY NX NY. destruct (plain_cases _ _ HX) as [[_ K]|[a [t [_ Et]]]]; [congruence|]. destruct (plain_cases _ _ HY) as [[_ K]|[b [u [_ Eu]]]]; [congruence|].
  destruct ((r =? Z.of_nat (length s)) || match s with [] => true | _ => false end) eqn:E; [|reflexivity]. unfold applyOp. cbn [map]. rewrite Et, Eu, infer_tt, dtype_refl. destruct s as [|c s]; [reflexivity|]. rewrite orb_false_r in E. apply Z.eqb_eq in E. subst r.
  cbn [bind applySub va find fst Nat.eqb isScalarTy dimsTy]. rewrite nodeShape_same. reflexivity.
Qed.
Lemma apply_tt_ok d x y m n s : plain d x -> plain d y -> nsh x <> [] -> nsh y <> [] -> applyOp [Ten m va; Ten n va] (match s with [] => va | _ => Ten (Z.of_nat (length s)) va end) (Ok s) [x; y] = Ok (fitting d s).
Proof. intros HX HY NX NY. rewrite (apply_tt d) by assumption. rewrite Z.eqb_refl. reflexivity. Qed.
Lemma apply_tt_err d x y m n r : plain d x -> plain d y -> nsh x <> [] -> nsh y <> [] -> applyOp [Ten m va; Ten n va] r Err [x; y] = Err.
Proof.
  intros HX HY NX NY. destruct (plain_cases _ _ HX) as [[_ K]|[a [t [_ Et]]]]; [congruence|]. destruct (plain_cases _ _ HY) as [[_ K]|[b [u [_ Eu]]]]; [congruence|]. unfold applyOp. cbn [map]. rewrite Et, Eu, infer_tt, dtype_refl. reflexivity.
Qed.
(** Mul: the node of the shape modelled in LinAlgModel.v. *)
Lemma nat_shape s : Forall (fun n => 0 <= n) s -> map Z.of_nat (map Z.to_nat s) = s.
Proof. intro H. rewrite map_map. rewrite <- (map_id s) at 2. apply map_ext_in. intros q Hq. rewrite Forall_forall in H. specialize (H q Hq). lia. Qed.
Theorem C85_mul : forall d x y, plain d x -> plain d y -> Forall (fun n => 0 <= n) (nsh x) -> Forall (fun n => 0 <= n) (nsh y) ->
  mulN x y = bind (natShape mulShape (nsh x) (nsh y)) (fun s => Ok (fitting d s)).
Proof.
  intros d x y HX HY PX PY. unfold mulN. rewrite (plain_scalar _ _ HX), (plain_scalar _ _ HY).
  assert (VT : forall n, plain d n -> isVectorTy (nty n) = Nat.eqb (length (nsh n)) 1). { intros n Hn. destruct (plain_cases _ _ Hn) as [[-> ->]|[a [t [-> ->]]]]; [reflexivity|]. cbn [isVectorTy]. destruct t as [|b t]; [reflexivity|]. replace (Z.of_nat (length (a :: b :: t)) =? 1) with false by (symmetry; apply Z.eqb_neq; cbn [length]; lia). reflexivity. }
  assert (MT : forall n, plain d n -> isMatrixN n = Nat.eqb (length (nsh n)) 2). { intros n Hn. unfold isMatrixN. destruct (plain_cases _ _ Hn) as [[-> ->]|[a [t [Es ->]]]]; [reflexivity|]. reflexivity. }
  rewrite !VT, !MT by assumption. unfold natShape, mulShape. rewrite !map_length.
  destruct (Nat.eqb_spec (length (nsh x)) 0) as [LX|LX]; [|destruct (Nat.eqb_spec (length (nsh y)) 0) as [LY|LY]]; cbn [orb].
  - rewrite (C85_elementwise d) by assumption. rewrite LX. cbn [mulChoice andThen bind]. destruct (nsh x) as [|a s] eqn:E; [|discriminate LX]. cbn [map hadamardScalarShape]. rewrite nat_shape by exact PY.
    replace (ewiseShape [] (nsh y)) with (Ok (nsh y)) by (unfold ewiseShape; destruct (nsh y); [reflexivity|]; destruct (_ && _); reflexivity). reflexivity.
  - rewrite (C85_elementwise d) by assumption. rewrite LY. destruct (nsh y) as [|b t] eqn:E; [|discriminate LY]. destruct (nsh x) as [|a s] eqn:EX; [cbn [length] in LX; congruence|]. cbn [length mulChoice andThen bind].
    replace (match length s with O => Ok Elementwise | S _ => Ok Elementwise end) with (Ok Elementwise) by (destruct (length s); reflexivity).
    replace (ewiseShape (a :: s) []) with (Ok (a :: s)) by (unfold ewiseShape; cbn [length Nat.ltb Nat.leb]; destruct (_ && _); reflexivity). destruct (length s) as [|[|?]]; cbn [andThen bind map hadamardScalarShape]; change (Z.of_nat (Z.to_nat a) :: map Z.of_nat (map Z.to_nat s)) with (map Z.of_nat (map Z.to_nat (a :: s))); rewrite nat_shape by exact PX; reflexivity.
  - destruct (nsh x) as [|x0 [|x1 [|x2 s]]] eqn:EX; [cbn [length] in LX; congruence| | |]; (destruct (nsh y) as [|y0 [|y1 [|y2 t]]] eqn:EY; [cbn [length] in LY; congruence| | |]); cbn [length Nat.eqb andb mulChoice andThen bind]; try reflexivity.
    + unfold vecDotN. apply (apply_tt_ok d x y 1 1 []); try assumption; congruence.
    + unfold matVecN, natShape, matVecShape. rewrite EX, EY. cbn [map transIf transpose2D idx nth_error andThen bind].
      destruct (negb (Nat.eqb (Z.to_nat y1) (Z.to_nat x0)) && negb (Nat.eqb (Z.to_nat y0) (Z.to_nat x0))); cbn [bind]; [apply (apply_tt_err d); try assumption; congruence|]. destruct (Nat.eqb _ _); cbn [bind map]; apply (apply_tt_ok d y x 2 1 [_]); try assumption; congruence.
    + unfold matVecN, natShape, matVecShape. rewrite EX, EY. cbn [map transIf transpose2D idx nth_error andThen bind].
      destruct (negb (Nat.eqb (Z.to_nat x0) (Z.to_nat y0)) && negb (Nat.eqb (Z.to_nat x1) (Z.to_nat y0))); cbn [bind]; [apply (apply_tt_err d); try assumption; congruence|]. destruct (Nat.eqb _ _); cbn [bind map]; apply (apply_tt_ok d x y 2 1 [_]); try assumption; congruence.
    + unfold matMulN, natShape, matMulShape. rewrite EX, EY. cbn [map transIf transpose2D idx nth_error andThen bind].
      destruct (negb (Nat.eqb (Z.to_nat x1) (Z.to_nat y0))); cbn [bind map]; [apply (apply_tt_err d); try assumption; congruence|]. apply (apply_tt_ok d x y 2 2 [_; _]); try assumption; congruence.
Qed.
Print Assumptions C85_mul.
Lemma batched_len ta tb x y s : batchedInfer ta tb x y = Ok s -> length s = length x.
Proof.
  unfold batchedInfer. destruct (Nat.ltb_spec (length x) 2) as [K|LX]; [intro X; discriminate X|]. destruct (Nat.ltb (length y) 2); [intro X; discriminate X|]. cbn [orb]. cbv zeta.
  destruct (negb _); [intro X; discriminate X|]. destruct (idx _ 0); [|intro X; discriminate X|intro X; discriminate X]. destruct (idx _ 1); [|intro X; discriminate X|intro X; discriminate X]. cbn [andThen]. intro X. injection X as <-. rewrite app_length, firstn_length. cbn [length]. lia.
Qed.
(** BatchedMatMul, OuterProd, MinBetween/MaxBetween, Tensordot. *)
Theorem C85_two_operands : forall d x y, plain d x -> plain d y ->
  (forall ta tb, batchedN ta tb x y = bind (natShape (batchedShape ta tb) (nsh x) (nsh y)) (fun s => Ok (fitting d s))) /\
  (forall m n, nsh x = [m] -> nsh y = [n] -> outerN x y = Ok (fitting d [m; n])) /\
  betweenN x y = (if shapeEq (nsh x) (nsh y) then Ok (fitting d (nsh x)) else Err) /\
  (forall aAxes bAxes, pairable aAxes (nsh x) bAxes (nsh y) -> nsh x <> [] -> nsh y <> [] -> tensordotN aAxes bAxes x y = Ok (fitting d (remaining aAxes (nsh x) bAxes (nsh y)))).
Proof.
  intros d x y HX HY.
  assert (AA : forall r, applyOp [va; va] va r [x; y] = if Bool.eqb (Nat.eqb (length (nsh x)) 0) (Nat.eqb (length (nsh y)) 0) then bind r (fun s => bind (nodeShape (isScalarTy (nty x)) (dimsTy (nty x)) s) (fun s' => Ok (Nd (nty x) s'))) else Err).
  { intro r. unfold applyOp. cbn [map]. rewrite (infer_aa d d) by assumption. rewrite dtype_refl, (plain_scalar _ _ HX), (plain_scalar _ _ HY). cbn [andb]. destruct (Bool.eqb _ _); [|reflexivity]. rewrite app_sub_va, (plain_scalar _ _ HX). reflexivity. }
  assert (NB : forall s, length s = length (nsh x) -> bind (nodeShape (isScalarTy (nty x)) (dimsTy (nty x)) s) (fun s' => Ok (Nd (nty x) s')) = Ok (fitting d s)).
  { intros s L. destruct (plain_cases _ _ HX) as [[Et Es]|[a [t [Es Et]]]]; rewrite Et; rewrite Es in L; cbn [isScalarTy dimsTy].
    - destruct s; [reflexivity|discriminate L].
    - rewrite <- L, nodeShape_same. destruct s; [discriminate L|reflexivity]. }
  split; [|split; [|split]].
  - intros ta tb. unfold batchedN, natShape, batchedShape. rewrite AA, !map_length. destruct (Bool.eqb _ _); [|reflexivity]. cbn [negb]. destruct (batchedInfer ta tb (map Z.to_nat (nsh x)) (map Z.to_nat (nsh y))) as [s| |] eqn:E; cbn [bind]; try reflexivity.
    apply batched_len in E. rewrite map_length in E. rewrite NB by (rewrite map_length; exact E). reflexivity.
  - intros m n EX EY. unfold outerN. rewrite EX, EY. replace (totalSize [m]) with m by (unfold totalSize; cbn; lia). replace (totalSize [n]) with n by (unfold totalSize; cbn; lia). apply (apply_tt_ok d x y 1 1 [m; n]); try assumption; congruence.
  - unfold betweenN. rewrite AA. destruct (shapeEq (nsh x) (nsh y)) eqn:E; cbn [bind].
    + rewrite NB by reflexivity. replace (Bool.eqb (Nat.eqb (length (nsh x)) 0) (Nat.eqb (length (nsh y)) 0)) with true; [reflexivity|].
      destruct (nsh x) as [|a s], (nsh y) as [|b t]; try reflexivity; exfalso; [|destruct s as [|? [|? ?]]]; discriminate E.
    + destruct (Bool.eqb _ _); reflexivity.
  - intros aAxes bAxes P NX NY. unfold tensordotN. cbv zeta. rewrite (TdotProofs.shape_ok _ _ _ _ P), !drop_without. fold (remaining aAxes (nsh x) bAxes (nsh y)). destruct P as [N1 [N2 [R1 [R2 EG]]]].
    assert (L : Z.max 0 (Z.of_nat (length (nsh x)) + Z.of_nat (length (nsh y)) - 2 * Z.of_nat (length aAxes)) = Z.of_nat (length (remaining aAxes (nsh x) bAxes (nsh y)))).
    { pose proof (length_without aAxes (nsh x) N1 R1). pose proof (length_without bAxes (nsh y) N2 R2). apply (f_equal (@length Z)) in EG. rewrite !len_gather in EG. unfold remaining. rewrite app_length. lia. }
    rewrite L. set (r := remaining aAxes (nsh x) bAxes (nsh y)) in *.
    replace (if Z.of_nat (length r) =? 0 then va else Ten (Z.of_nat (length r)) va) with (match r with [] => va | _ => Ten (Z.of_nat (length r)) va end) by (destruct r; [reflexivity|]; replace (Z.of_nat (length (z :: r)) =? 0) with false by (symmetry; apply Z.eqb_neq; cbn [length]; lia); reflexivity).
    apply apply_tt_ok; assumption.
Qed.
Print Assumptions C85_two_operands.
(** Concat of any number of tensors of one dtype. *)
Lemma unify_many d m : forall xs, Forall (fun x => plain d x /\ nsh x <> []) xs -> unifyArgs [(0%nat, Dt d)] (map nty xs) (repeat (Ten m va) (length xs)) = Some [(0%nat, Dt d)].
Proof.
  induction xs as [|x xs IH]; intro H; [reflexivity|]. pose proof (Forall_inv H) as [HX NX]. cbn [map length repeat unifyArgs]. destruct (plain_cases _ _ HX) as [[_ K]|[a [t [_ Et]]]]; [congruence|]. rewrite Et. change (applySub [(0%nat, Dt d)] (Ten m va)) with (Ten m (Dt d)). rewrite unify_ten, dtype_refl.
  rewrite app_nil_r. apply IH. exact (Forall_inv_tail H).
Qed.
Lemma concat_len axis : forall shapes s r, concatShape axis s shapes = Ok r -> length r = length s.
Proof. induction shapes as [|s' shapes IH]; intros s r H; cbn [concatShape] in H; [injection H as <-; reflexivity|]. destruct (_ && _); [|discriminate H]. rewrite (IH _ _ H), len_set. reflexivity. Qed.
Theorem C85_concat : forall d axis x xs, plain d x -> Forall (plain d) xs -> 0 <= axis ->
  concatN axis (x :: xs) = Err \/ exists s, concatShape (Z.to_nat axis) (nsh x) (map nsh xs) = Ok s /\ concatN axis (x :: xs) = Ok (fitting d s).
Proof.
  intros d axis x xs HX HS HA. unfold concatN. destruct (forallb (fun n => Nat.eqb (length (nsh n)) (length (nsh x))) xs) eqn:FB; cbn [negb]; [|left; reflexivity]. destruct (Nat.eqb_spec (length (nsh x)) 0) as [L|L]; [left; reflexivity|]. destruct (_ <=? axis); [left; reflexivity|].
  replace (axis <? 0) with false by lia. assert (NX : nsh x <> []) by (intro K; rewrite K in L; apply L; reflexivity).
  assert (HS' : Forall (fun x => plain d x /\ nsh x <> []) xs). { rewrite forallb_forall in FB. rewrite Forall_forall in *. intros q Hq. split; [apply HS, Hq|]. specialize (FB q Hq). apply Nat.eqb_eq in FB. intro K. rewrite K in FB. cbn [length] in FB. congruence. }
  unfold applyOp, inferNodeType. cbn [length repeat map unifyArgs]. destruct (plain_cases _ _ HX) as [[_ K]|[a [t [_ Et]]]]; [congruence|]. rewrite Et. change (unify (Ten (Z.of_nat (length (a :: t))) (Dt d)) (applySub [] (Ten (Z.of_nat (length (nsh x))) va))) with (Some [(0%nat, Dt d)]). cbv iota. cbn [app]. rewrite (unify_many d) by exact HS'.
  destruct (concatShape (Z.to_nat axis) (nsh x) (map nsh xs)) as [s| |] eqn:E; cbn [bind].
  - right. exists s. split; [reflexivity|]. apply concat_len in E. cbn [applySub va find fst Nat.eqb isScalarTy dimsTy]. rewrite <- E, nodeShape_same. destruct s; [cbn [length] in E; congruence|reflexivity].
  - left. reflexivity.
  - exfalso. clear - E. assert (Q : forall shapes s, concatShape (Z.to_nat axis) s shapes <> Panic). { induction shapes as [|u shapes IH]; intros s; cbn [concatShape]; [intro K; discriminate K|]. destruct (_ && _); [apply IH|intro K; discriminate K]. } exact (Q _ _ E).
Qed.
Print Assumptions C85_concat.

(** ** Where types and shapes come apart *)
(** Slicing one axis. The type
    drops the axis if End-Start ([selection]) is one, the library if the slice has one
    entry, which differs for steps above one. *)
Lemma slice_cases : forall d x k selection len, plain d x -> (k < length (nsh x))%nat ->
  sliceOpN x selection (Ok (if len =? 1 then removeAt (nsh x) k else setZ (nsh x) k len)) =
  if len =? 1 then (if selection =? 1 then Ok (fitting d (removeAt (nsh x) k)) else Panic)
  else if selection =? 1 then sliceOpN x selection (Ok (setZ (nsh x) k len)) else Ok (fitting d (setZ (nsh x) k len)).
Proof.
  intros d x k sel len HX HK. assert (NX : nsh x <> []) by (intro K; rewrite K in HK; cbn [length] in HK; lia). assert (RL : forall l j, (j < length l)%nat -> S (length (removeAt l j)) = length l).
  { induction l as [|a l IH]; intros [|j] H; cbn [removeAt length] in *; try lia. rewrite IH by lia. lia. }
  destruct (len =? 1).
  - unfold sliceOpN, sliceRetTy. pose proof (RL (nsh x) k HK) as LR. set (r := removeAt (nsh x) k) in *. destruct (sel =? 1).
    + destruct (Nat.eqb_spec (length (nsh x)) 1) as [L|L].
      * destruct r as [|q r]; [|cbn [length] in LR; lia]. apply apply_ts; assumption.
      * apply apply_t; try assumption; [|lia]. intros ->. cbn [length] in LR. lia.
    + destruct (plain_cases _ _ HX) as [[_ K]|[a [t [_ Et]]]]; [congruence|]. unfold applyOp. cbn [map]. rewrite Et, infer_t. cbn [bind applySub va find fst Nat.eqb isScalarTy dimsTy]. unfold nodeShape. cbv zeta.
      replace (Z.of_nat (length (nsh x)) =? Z.of_nat (length r)) with false by (symmetry; apply Z.eqb_neq; lia). replace (Z.of_nat (length (nsh x)) =? 0) with false by (symmetry; apply Z.eqb_neq; lia). cbn [andb]. rewrite !orb_false_r.
      destruct (Z.eqb_spec (Z.of_nat (length (nsh x))) 1) as [L|L]; [|rewrite andb_false_r; reflexivity]. destruct r as [|q r]; [reflexivity|cbn [length] in LR; lia].
  - destruct (sel =? 1) eqn:E; [reflexivity|]. unfold sliceOpN, sliceRetTy. rewrite E. apply apply_t; try assumption; [|rewrite len_set; reflexivity]. destruct (nsh x); [congruence|]. destruct k; discriminate.
Qed.
Theorem C85_slice : forall d x k selection len, plain d x -> (k < length (nsh x))%nat ->
  (selection = 1 -> sliceOpN x selection (Ok (removeAt (nsh x) k)) = Ok (fitting d (removeAt (nsh x) k))) /\
  (selection <> 1 -> sliceOpN x selection (Ok (setZ (nsh x) k len)) = Ok (fitting d (setZ (nsh x) k len))) /\
  (selection <> 1 -> sliceOpN x selection (Ok (removeAt (nsh x) k)) = Panic).
Proof.
  intros d x k sel len HX HK. pose proof (slice_cases d x k sel 1 HX HK) as H1. pose proof (slice_cases d x k sel 2 HX HK) as H2. cbn [Z.eqb Pos.eqb] in H1, H2.
  split; [intros ->; exact H1|]. split; [|intro N; rewrite (proj2 (Z.eqb_neq sel 1) N) in H1; exact H1].
  intro N. clear H1 H2. assert (NX : nsh x <> []) by (intro K; rewrite K in HK; cbn [length] in HK; lia). unfold sliceOpN, sliceRetTy. rewrite (proj2 (Z.eqb_neq sel 1) N). apply apply_t; try assumption; [|rewrite len_set; reflexivity]. destruct (nsh x); [congruence|]. destruct k; discriminate.
Qed.
Print Assumptions C85_slice.
(** DiagFlat gives a matrix whose entries have the type of the operand. It cannot be added
    to or multiplied with a matrix, nor summed to a scalar, although its shape and dtype
    would allow it. *)
Theorem C85_diagflat_refuted : forall d x, plain d x -> scalarEquiv (nsh x) = false ->
  exists n, diagFlatN x = Ok n /\ nsh n = [totalSize (nsh x); totalSize (nsh x)] /\ nty n = Ten 2 (nty x) /\ dtypeOf (nty n) = Some d /\ ~ plain d n /\
    (forall y bools, plain d y -> ewiseN bools n y = Err /\ ewiseN bools y n = Err) /\
    (forall y, plain d y -> mulN n y = Err /\ mulN y n = Err) /\
    (positive (nsh x) -> reduceN n [] = Panic) /\ atN n = Panic /\ (forall to e, convTypeN n e to = Err).
Proof.
  intros d x HX SE. destruct (plain_cases _ _ HX) as [[_ K]|[a [t [Es Et]]]]; [rewrite K in SE; discriminate SE|]. set (N := totalSize (nsh x)). set (tx := Ten (Z.of_nat (length (a :: t))) (Dt d)) in *.
  exists (Nd (Ten 2 tx) [N; N]). split.
  { unfold diagFlatN. rewrite SE. unfold applyOp. cbn [map]. rewrite (infer_a d) by exact HX. rewrite Et. fold N. cbn [bind]. change (applySub [(0%nat, tx)] (Ten 2 va)) with (Ten 2 tx). cbn [isScalarTy dimsTy]. change 2 with (Z.of_nat (length [N; N])) at 1. rewrite nodeShape_same. reflexivity. }
  split; [reflexivity|]. split; [cbn [nty]; rewrite Et; reflexivity|]. split; [reflexivity|]. split. { intros [[K _]|[K _]]; cbn [nty nsh length] in K; discriminate K. }
  assert (NU : forall s, applySub s tx = tx) by reflexivity.
  assert (EW : forall y bools, plain d y -> ewiseN bools (Nd (Ten 2 tx) [N; N]) y = Err /\ ewiseN bools y (Nd (Ten 2 tx) [N; N]) = Err).
  { intros y bools HY. unfold ewiseN, applyOp, inferNodeType. cbn [map nty]. destruct (plain_cases _ _ HY) as [[-> _]|[b [u [_ ->]]]]; cbn [ewiseArgTy unifyArgs].
    - split.
      + change (unify (Ten 2 tx) (applySub [] (Ten 2 va))) with (Some [(0%nat, tx)]). cbv iota. reflexivity.
      + change (unify (Dt d) (applySub [] va)) with (Some [(0%nat, Dt d)]). cbv iota. reflexivity.
    - split.
      + change (unify (Ten 2 tx) (applySub [] (Ten 2 va))) with (Some [(0%nat, tx)]). cbv iota. cbn [app]. change (applySub [(0%nat, tx)] (Ten (Z.of_nat (length (b :: u))) va)) with (Ten (Z.of_nat (length (b :: u))) tx). reflexivity.
      + change (unify (Ten (Z.of_nat (length (b :: u))) (Dt d)) (applySub [] (Ten (Z.of_nat (length (b :: u))) va))) with (Some [(0%nat, Dt d)]). cbv iota. reflexivity. }
  assert (TT1 : forall y m n r sh, plain d y -> applyOp [Ten m va; Ten n va] r sh [Nd (Ten 2 tx) [N; N]; y] = Err).
  { intros y m n r sh HY. unfold applyOp, inferNodeType. cbn [map nty unifyArgs]. change (unify (Ten 2 tx) (applySub [] (Ten m va))) with (Some [(0%nat, tx)]). cbv iota. destruct (plain_cases _ _ HY) as [[-> _]|[b [u [_ ->]]]]; reflexivity. }
  assert (TT2 : forall y m n r sh, plain d y -> applyOp [Ten m va; Ten n va] r sh [y; Nd (Ten 2 tx) [N; N]] = Err).
  { intros y m n r sh HY. unfold applyOp, inferNodeType. cbn [map nty unifyArgs]. destruct (plain_cases _ _ HY) as [[-> _]|[b [u [_ ->]]]]; [reflexivity|]. change (unify (Ten (Z.of_nat (length (b :: u))) (Dt d)) (applySub [] (Ten m va))) with (Some [(0%nat, Dt d)]). cbv iota. reflexivity. }
  split; [exact EW|]. split.
  { intros y HY. unfold mulN. cbn [nty isScalarTy isVectorTy]. change (2 =? 1) with false. rewrite !andb_false_r. cbn [andb orb]. rewrite orb_false_r. split.
    - destruct (isScalarTy (nty y)); [apply EW, HY|]. destruct (_ && _); [apply TT1, HY|]. destruct (_ && _); [apply TT1, HY|reflexivity].
    - destruct (isScalarTy (nty y)); [apply EW, HY|]. destruct (_ && _); [apply TT1, HY|]. destruct (_ && _); [apply TT2, HY|reflexivity]. }
  split. { intro HP. assert (NP : 0 < N). { unfold N. clear - HP. induction HP as [|q s Hq _ IH]; [reflexivity|]. unfold totalSize in *. cbn [fold_right] in *. nia. }
    unfold reduceN. cbn [nty nsh isScalarTy length iota seq map]. unfold applyOp, inferNodeType. cbn [map nty unifyArgs]. change (fst (reductionTy 2 [Z.of_nat 0; Z.of_nat 1])) with (Ten 0 va). change (snd (reductionTy 2 [Z.of_nat 0; Z.of_nat 1])) with va. change (unify (Ten 2 tx) (applySub [] (Ten 0 va))) with (Some [(0%nat, tx)]). cbv iota. cbn [app]. rewrite app_sub_va.
    change (reductionInferShape [Z.of_nat 0; Z.of_nat 1] [N; N]) with (Ok (@nil Z)). cbn [bind]. unfold tx. unfold nodeShape. cbn [isScalarTy dimsTy colVec rowVec orb andb length]. change (Z.of_nat 0) with 0. replace (Z.of_nat (S (length t)) =? 0) with false by (symmetry; apply Z.eqb_neq; lia). reflexivity. }
  split. { unfold atN, applyOp, inferNodeType. cbn [map nty unifyArgs nsh length]. change (unify (Ten 2 tx) (applySub [] (Ten (Z.of_nat 2) va))) with (Some [(0%nat, tx)]). cbv iota. cbn [app]. rewrite app_sub_va. cbn [bind]. unfold tx, nodeShape. cbn [isScalarTy dimsTy colVec rowVec orb andb length]. change (Z.of_nat 0) with 0. replace (Z.of_nat (S (length t)) =? 0) with false by (symmetry; apply Z.eqb_neq; lia). reflexivity. }
  intros to e. reflexivity.
Qed.
Print Assumptions C85_diagflat_refuted.
(** A vector given as a column or row (NewVector with WithShape(n, 1)) is accepted; then
    Reshape to a matrix that is neither panics. *)
Theorem C85_vector_column_refuted : forall d n r c, 1 < n -> 1 < r -> 1 < c -> r * c = n ->
  exists x, inputNode (Ten 1 (Dt d)) [n; 1] = Ok x /\ fits x /\ ~ plain d x /\ reshapeN x [r; c] = Panic /\ reshapeN x [1; n] = Ok (Nd (Ten 1 (Dt d)) [1; n]).
Proof.
  intros d n r c Hn Hr Hc E. exists (Nd (Ten 1 (Dt d)) [n; 1]). split; [unfold inputNode, nodeShape; cbn [isScalarTy dimsTy colVec length]; replace (1 <? n) with true by lia; reflexivity|].
  split; [right; left; split; [reflexivity|]; exists n; split; [exact Hn|left; reflexivity]|]. split; [intros [[K _]|[K _]]; discriminate K|].
  unfold reshapeN. cbn [nsh]. assert (RC : forall p q, 0 <= p -> 0 <= q -> p * q = n -> fst (reshapeCall [n; 1] [p; q]) = Ok [p; q]).
  { intros p q Hp Hq Epq. unfold reshapeCall. cbn [negs filter]. unfold negs. cbn [filter]. replace (p <? 0) with false by lia. replace (q <? 0) with false by lia. cbn [length Nat.ltb Nat.leb Nat.eqb]. replace (totalSize [n; 1] =? totalSize [p; q]) with true; [reflexivity|]. symmetry. apply Z.eqb_eq. unfold totalSize. cbn. lia. }
  rewrite (RC r c) by lia. rewrite (RC 1 n) by lia. cbn [bind]. unfold reshapeTy. cbn [length Nat.eqb fst snd]. unfold applyOp. cbn [map nty]. unfold inferNodeType. cbn [unifyArgs]. change (unify (Ten 1 (Dt d)) (applySub [] va)) with (Some [(0%nat, Ten 1 (Dt d))]). cbv iota. cbn [app]. rewrite app_sub_va. cbn [bind isScalarTy dimsTy].
  unfold nodeShape. cbn [colVec rowVec length]. replace (c =? 1) with false by lia. replace (r =? 1) with false by lia. split; [reflexivity|]. replace (1 <? n) with true by lia. replace (n =? 1) with false by lia. reflexivity.
Qed.
Print Assumptions C85_vector_column_refuted.

(** ** Concrete cases *)
Definition exM : node := Nd (Ten 2 (Dt F64)) [2; 3].
Definition exV : node := Nd (Ten 1 (Dt F64)) [3].
Lemma exM_plain : plain F64 exM. Proof. right. split; [reflexivity|discriminate]. Qed.
Lemma exV_plain : plain F64 exV. Proof. right. split; [reflexivity|discriminate]. Qed.
Example C85_ex_fits : exists n, mulN exM exV = Ok n /\ fits n /\ n = fitting F64 [2].
Proof. eexists. split; [reflexivity|]. split; [left; reflexivity|reflexivity]. Qed.
Example C85_ex_compare : ewiseN true exM exM = Ok (Nd (Ten 2 (Dt BoolT)) [2; 3]).
Proof. reflexivity. Qed.
(** Adding [1] and [1, 1] panics, in the other order it does not. *)
Example C85_ex_crash : let a := fitting F64 [1] in let b := fitting F64 [1; 1] in ewiseN false a b = Panic /\ ewiseN false b a = Ok b.
Proof. split; reflexivity. Qed.
Example C85_ex_mixed : ewiseN false exM (fitting F32 []) = Err /\ mulN exM (fitting F32 [3]) = Err.
Proof. split; reflexivity. Qed.
Example C85_ex_reduction : reduceN exM [1] = Ok (fitting F64 [2]).
Proof. reflexivity. Qed.
Example C85_ex_twice : reduceN (fitting F64 [2; 3; 4]) [0; 0] = Panic /\ reduceN (fitting F64 [2; 3; 1]) [0; 0] = Ok (Nd (Ten 1 (Dt F64)) [3; 1]).
Proof. split; reflexivity. Qed.
Example C85_ex_one : transposeN exM [1; 0] = Ok (fitting F64 [3; 2]) /\ reshapeN exM [-1] = Ok (fitting F64 [6]) /\ convTypeN exM F64 F32 = Ok (fitting F32 [2; 3]) /\ convTypeN exM F32 F64 = Err.
Proof. repeat split; reflexivity. Qed.
Example C85_ex_two : tensordotN [1] [0] exM exV = Ok (fitting F64 [2]) /\ betweenN (fitting F64 [3]) (fitting F64 [3; 1]) = Ok (fitting F64 [3]) /\
  batchedN false true (fitting F64 [5; 2; 3]) (fitting F64 [5; 1; 7; 3]) = Ok (fitting F64 [5; 2; 7]).
Proof. repeat split; reflexivity. Qed.
Example C85_ex_concat : concatN 1 [exM; exM] = Ok (fitting F64 [2; 6]).
Proof. reflexivity. Qed.
(** A vector of three entries sliced by S(0, 2, 2): one entry in the library, two by the
    type. *)
Example C85_ex_slice : sliceOpN exV 2 (Ok []) = Panic /\ sliceOpN exV 1 (Ok []) = Ok (fitting F64 []).
Proof. split; reflexivity. Qed.
Example C85_ex_diag : exists n, diagFlatN exV = Ok n /\ ewiseN false n (fitting F64 [3; 3]) = Err /\ reduceN n [] = Panic /\ reduceN n [0] = Ok (Nd (Ten 1 (Ten 1 (Dt F64))) [3]).
Proof. eexists. repeat split; reflexivity. Qed.
Example C85_ex_column : exists x, inputNode (Ten 1 (Dt F64)) [6; 1] = Ok x /\ reshapeN x [2; 3] = Panic.
Proof. eexists. split; reflexivity. Qed.
