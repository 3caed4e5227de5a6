(** Property theorems C74. *)
From Coq Require Import List ZArith Bool Lia Ring.
From Verif Require Import Sums BroadcastModel BroadcastSpec BroadcastProofs ShapeGradModel ShapeGradSpec ShapeGradProofs ShapeGradSlice ShapeGradConcat ShapeGradSum ShapeGradProps SumAutoModel.
Import ListNotations.
Local Open Scope Z_scope.

(** The shape with size one on the axes: what keeping the summed axes would give. *)
Fixpoint ones_at (axes : list Z) (k : Z) (s : list Z) : list Z :=
  match s with [] => [] | d :: s' => (if existsb (Z.eqb k) axes then 1 else d) :: ones_at axes (k + 1) s' end.

Lemma len_ones axes s : forall k, length (ones_at axes k s) = length s.
Proof. induction s as [|d s IH]; intro k; cbn [ones_at length]; [reflexivity|]. rewrite IH. reflexivity. Qed.
Lemma nth_ones axes s : forall k j, (j < length s)%nat -> nth j (ones_at axes k s) 0 = if existsb (Z.eqb (k + Z.of_nat j)) axes then 1 else nth j s 0.
Proof.
  induction s as [|d s IH]; intros k [|j] H; cbn [length] in H; try lia; cbn [ones_at nth].
  - rewrite Z.add_0_r. reflexivity.
  - rewrite IH by lia. replace (k + 1 + Z.of_nat j) with (k + Z.of_nat (S j)) by lia. reflexivity.
Qed.
Lemma without_ones axes s : forall k, without axes k (ones_at axes k s) = without axes k s.
Proof. induction s as [|d s IH]; intro k; cbn [ones_at without]; [reflexivity|]. destruct (existsb (Z.eqb k) axes); rewrite IH; reflexivity. Qed.
Lemma fold_ones axes : forall s : list Z, Forall (fun a => 0 <= a < Z.of_nat (length s)) axes ->
  length (fold_left (fun s' a => setZ s' (Z.to_nat a) 1) axes s) = length s /\
  forall j, nth j (fold_left (fun s' a => setZ s' (Z.to_nat a) 1) axes s) 0 = if existsb (Z.eqb (Z.of_nat j)) axes then 1 else nth j s 0.
Proof.
  induction axes as [|a axes IH]; intros s H; cbn [fold_left existsb]; [auto|]. inversion_clear H as [|? ? H1 H2].
  destruct (IH (setZ s (Z.to_nat a) 1) ltac:(rewrite len_set; exact H2)) as [I1 I2]. rewrite len_set in I1. split; [exact I1|]. intro j. rewrite I2, nth_set by lia.
  destruct (Nat.eqb_spec j (Z.to_nat a)), (Z.eqb_spec (Z.of_nat j) a); try lia; cbn [orb]; destruct (existsb _ _); reflexivity.
Qed.
Lemma fold_ones_at axes s : Forall (fun a => 0 <= a < Z.of_nat (length s)) axes -> fold_left (fun s' a => setZ s' (Z.to_nat a) 1) axes s = ones_at axes 0 s.
Proof.
  intro H. destruct (fold_ones axes s H) as [L N]. apply list_eq; [rewrite len_ones; exact L|]. intros i Hi. rewrite N, nth_ones by lia. reflexivity.
Qed.
Lemma shapeEq_refl s : shapeEq s s = true.
Proof. destruct s as [|a [|b [|c l]]]; apply eqShape_refl. Qed.
Lemma shapeEq_len s t : length s = length t -> shapeEq s t = true -> s = t.
Proof. intros L H. destruct s as [|a [|b [|c s]]], t as [|d [|e [|f t]]]; cbn [length] in L; try discriminate; try (apply eqShape_iff; exact H). Qed.

Section Proofs.
Context {A : Type} {CR : CRing A}.
Add Ring Aring : (@cr_th A CR).
Notation tens := (@tens A).

Lemma loop_ok xs axes : NoDup axes -> positive xs -> forall t : tens, length (shp t) = length xs -> Forall (fun a => 0 <= a < Z.of_nat (length xs) /\ nth (Z.to_nat a) (shp t) 0 = 1) axes ->
  exists t', repeatLoop xs axes t = Ok t' /\ length (shp t') = length xs /\
    (forall i, (i < length xs)%nat -> nth i (shp t') 0 = if existsb (Z.eqb (Z.of_nat i)) axes then nth i xs 0 else nth i (shp t) 0) /\
    forall idx, inside (shp t') idx -> at_ t' idx = at_ t (clampAxes axes idx).
Proof.
  intros ND HP. induction ND as [|a axes Hn ND IH]; intros t L H; cbn [repeatLoop].
  - exists t. split; [reflexivity|]. split; [exact L|]. split; [reflexivity|]. intros idx _. f_equal. apply list_eq; [rewrite len_clamp; reflexivity|]. intros i _. rewrite nth_clamp. reflexivity.
  - inversion_clear H as [|? ? [Ha H1] H2]. destruct (Z.eqb_spec (nth (Z.to_nat a) xs 0) 1) as [E|E].
    + destruct (IH t L H2) as [t' [Et [L' [S' V]]]]. exists t'. split; [exact Et|]. split; [exact L'|].
      assert (SA : nth (Z.to_nat a) (shp t') 0 = 1) by (rewrite S' by lia; destruct (existsb _ _); [exact E|exact H1]).
      split.
      * intros i Hi. rewrite S' by exact Hi. cbn [existsb]. destruct (Z.eqb_spec (Z.of_nat i) a) as [<-|Hi']; [|reflexivity]. cbn [orb]. rewrite Nat2Z.id in *. rewrite E, H1. destruct (existsb _ _); reflexivity.
      * intros idx Hi. rewrite V by exact Hi. f_equal. apply list_eq; [rewrite !len_clamp; reflexivity|]. intros i Hl. rewrite len_clamp in Hl. rewrite !nth_clamp. cbn [existsb]. destruct (Z.eqb_spec (Z.of_nat i) a) as [<-|]; [|reflexivity]. cbn [orb]. destruct (existsb _ _); [reflexivity|].
        apply inside_nth in Hi. destruct Hi as [Li Hi]. specialize (Hi i ltac:(lia)). rewrite Nat2Z.id in SA. lia.
    + unfold repeatNode, repeatShape. replace (Nat.leb (length (shp t)) (Z.to_nat a)) with false by (symmetry; apply Nat.leb_gt; lia). rewrite andb_false_r.
      assert (NE : match shp t with [] => [1] | _ => shp t end = shp t) by (destruct (shp t); [cbn [length] in L; lia|reflexivity]). rewrite NE. rewrite (nth_error_nth' (shp t) 0) by lia. rewrite H1, Z.mul_1_l. cbv zeta. rewrite len_set. replace (Nat.max 1 (length (shp t))) with (length (shp t)) by (destruct (shp t); [cbn [length] in L; lia|reflexivity]). rewrite Nat.eqb_refl. cbn [orb bind].
      set (t1 := Tn _ _). destruct (IH t1) as [t' [Et [L' [S' V]]]].
      * unfold t1. cbn [shp]. rewrite len_set. exact L.
      * rewrite Forall_forall in H2 |- *. intros b Hb. destruct (H2 b Hb) as [Hb1 Hb2]. split; [exact Hb1|]. unfold t1. cbn [shp]. rewrite nth_set by lia. destruct (Nat.eqb_spec (Z.to_nat b) (Z.to_nat a)) as [X|X]; [|exact Hb2]. exfalso. apply Hn. replace a with b by lia. exact Hb.
      * exists t'. split; [exact Et|]. split; [exact L'|]. split.
        -- intros i Hi. rewrite S' by exact Hi. cbn [existsb]. unfold t1. cbn [shp]. rewrite nth_set by lia. destruct (Z.eqb_spec (Z.of_nat i) a) as [<-|Hi']; cbn [orb].
           ++ rewrite Nat2Z.id, Nat.eqb_refl. destruct (existsb _ _); reflexivity.
           ++ replace (Nat.eqb i (Z.to_nat a)) with false by (symmetry; apply Nat.eqb_neq; lia). reflexivity.
        -- intros idx Hi. rewrite V by exact Hi. unfold t1. cbn [at_]. f_equal. apply list_eq; [rewrite len_div, !len_clamp; reflexivity|]. intros i Hl. rewrite nth_div, !nth_clamp. cbn [existsb]. destruct (Nat.eqb_spec i (Z.to_nat a)) as [->|Hi'].
           ++ replace (Z.of_nat (Z.to_nat a) =? a) with true by (symmetry; apply Z.eqb_eq; lia). cbn [orb]. destruct (existsb _ _); [apply Zdiv_0_l|]. apply Z.div_small. apply inside_nth in Hi. destruct Hi as [Li Hi]. specialize (Hi (Z.to_nat a) ltac:(lia)). rewrite S' in Hi by lia. unfold t1 in Hi. cbn [shp] in Hi. rewrite nth_set, Nat.eqb_refl in Hi by lia. destruct (existsb _ _); lia.
           ++ replace (Z.of_nat i =? a) with false by (symmetry; apply Z.eqb_neq; lia). reflexivity.
Qed.

(** ** C74 *)
(** The automatic gradient of Sum adds the adjoint to whatever derivative the input had. The
    output's derivative may have the shape of the output, or already the shape with the
    summed axes kept as ones, which is what the call leaves behind: running it again on the
    same derivative tensors is right, too. *)
Theorem C74_sum : forall (x : tens) axes y, axes <> [] -> NoDup axes -> Forall (fun a => 0 <= a < Z.of_nat (length (shp x))) axes -> positive (shp x) ->
  sumApi x axes = Ok y -> forall xd g, shp xd = shp x -> shp g = shp y ->
  exists gx xd' g', pulled_back x y g gx /\ sumDoDiff axes xd g = Ok (xd', g') /\ shp xd' = shp x /\
    (forall idx, inside (shp x) idx -> at_ xd' idx = radd (at_ xd idx) (at_ gx idx)) /\
    (shp y = [] -> g' = g) /\
    (shp y <> [] -> shp g' = ones_at axes 0 (shp x) /\
       forall xd2, shp xd2 = shp x -> exists xd2', sumDoDiff axes xd2 g' = Ok (xd2', g') /\ shp xd2' = shp x /\
         forall idx, inside (shp x) idx -> at_ xd2' idx = radd (at_ xd2 idx) (at_ gx idx)).
Proof.
  intros x axes y HN ND HF HP Ey xd g Sd Sg. destruct (C60_sum x axes HN ND HF HP) as [y' [Ey' [Sy [_ G]]]]. rewrite Ey in Ey'. injection Ey' as <-.
  destruct (G g Sg) as [gx [_ [PB Vg]]]. exists gx. destruct (shp g) as [|d0 s0] eqn:EG.
  - exists (addSame xd (Tn (shp xd) (fun _ => at_ g []))), g. split; [exact PB|]. unfold sumDoDiff. rewrite EG. split; [reflexivity|]. split; [exact Sd|]. split.
    + intros idx Hi. cbn [addSame at_]. rewrite Vg by exact Hi. f_equal. f_equal. pose proof (without_inside axes _ _ Hi 0) as K. rewrite <- Sy, <- Sg in K. inversion K. reflexivity.
    + split; [reflexivity|]. intro K. exfalso. apply K. congruence.
  - rewrite <- EG in *. assert (NG : shp g <> []) by (rewrite EG; discriminate). clear EG d0 s0.
    set (kept := ones_at axes 0 (shp x)).
    assert (K1 : forall j, (j < length kept)%nat -> existsb (Z.eqb (0 + Z.of_nat j)) axes = true -> nth j kept 0 = 1).
    { intros j Hj E. unfold kept in *. rewrite len_ones in Hj. rewrite nth_ones by exact Hj. rewrite E. reflexivity. }
    assert (W : without axes 0 kept = shp g) by (unfold kept; rewrite without_ones; congruence).
    set (g' := Tn kept (fun idx => at_ g (unravel (shp g) (ravel kept idx)))).
    assert (VG' : forall idx, inside kept idx -> at_ g' idx = at_ g (without axes 0 idx)).
    { intros idx Hi. unfold g'. cbn [at_]. destruct (ravel_without axes kept idx Hi 0 K1) as [-> _]. rewrite W. rewrite unravel_ravel; [reflexivity|]. rewrite <- W. apply without_inside, Hi. }
    assert (LG : (length (shp g) + length axes = length (shp x))%nat).
    { rewrite Sg, Sy. apply length_without; assumption. }
    assert (LA : (0 < length axes)%nat) by (destruct axes; [contradiction|cbn [length]; lia]).
    (* what follows the reshape, for any derivative of the input *)
    assert (MAIN : forall xd2 : tens, shp xd2 = shp x -> exists xd2', bind (if shapeEq (shp g') (shp xd2) then Ok g' else repeatLoop (shp xd2) axes g') (fun val => bind (addInto xd2 val) (fun d => Ok (d, g'))) = Ok (xd2', g') /\ shp xd2' = shp x /\
         forall idx, inside (shp x) idx -> at_ xd2' idx = radd (at_ xd2 idx) (at_ gx idx)).
    { intros xd2 S2. rewrite S2. assert (V : exists val, (if shapeEq (shp g') (shp x) then Ok g' else repeatLoop (shp x) axes g') = Ok val /\ shp val = shp x /\ forall idx, inside (shp x) idx -> at_ val idx = at_ gx idx).
      { destruct (shapeEq (shp g') (shp x)) eqn:EQ.
        - exists g'. apply shapeEq_len in EQ; [|unfold g', kept; cbn [shp]; apply len_ones]. split; [reflexivity|]. split; [exact EQ|]. intros idx Hi. rewrite Vg by exact Hi. apply VG'. rewrite <- EQ in Hi. exact Hi.
        - destruct (loop_ok (shp x) axes ND HP g') as [t' [Et [L' [S' V]]]].
          + unfold g', kept. cbn [shp]. apply len_ones.
          + rewrite Forall_forall in HF |- *. intros a Ha. specialize (HF a Ha). split; [exact HF|]. unfold g'. cbn [shp]. apply K1; [unfold kept; rewrite len_ones; lia|]. apply existsb_exists. exists a. split; [exact Ha|]. apply Z.eqb_eq. lia.
          + assert (ST : shp t' = shp x).
            { apply list_eq; [exact L'|]. intros i Hi. rewrite L' in Hi. rewrite S' by exact Hi. unfold g', kept. cbn [shp]. rewrite nth_ones by exact Hi. cbn [Z.add]. destruct (existsb _ _); reflexivity. }
            exists t'. split; [exact Et|]. split; [exact ST|]. intros idx Hi. rewrite V by (rewrite ST; exact Hi). rewrite Vg by exact Hi. rewrite VG'.
            * f_equal. apply without_same; [apply len_clamp|]. intros j Hj. cbn [Z.add] in Hj. rewrite nth_clamp, Hj. reflexivity.
            * apply inside_nth in Hi. destruct Hi as [Li Hi]. apply inside_nth. unfold kept. rewrite len_clamp, len_ones. split; [exact Li|]. intros i Hl. rewrite nth_clamp, nth_ones by exact Hl. cbn [Z.add]. specialize (Hi i Hl). destruct (existsb _ _); lia. }
      destruct V as [val [-> [Sv Vv]]]. cbn [bind]. unfold addInto. rewrite S2, Sv, shapeEq_refl. cbn [bind]. eexists. split; [reflexivity|]. split; [reflexivity|]. intros idx Hi. cbn [at_]. rewrite unravel_ravel by exact Hi. rewrite Vv by exact Hi. reflexivity. }
    assert (E1 : forall xd2 : tens, shp xd2 = shp x -> sumDoDiff axes xd2 g = bind (if shapeEq (shp g') (shp xd2) then Ok g' else repeatLoop (shp xd2) axes g') (fun val => bind (addInto xd2 val) (fun d => Ok (d, g')))).
    { intros xd2 S2. unfold sumDoDiff. assert (SP : forall (T : Type) (p q : T), match shp g with [] => p | _ :: _ => q end = q) by (intros; destruct (shp g); [contradiction|reflexivity]). rewrite SP, S2.
      replace (Z.of_nat (length (shp g)) =? Z.of_nat (length (shp x)) - Z.of_nat (length axes)) with true by (symmetry; apply Z.eqb_eq; lia).
      rewrite fold_ones_at by exact HF. fold kept. unfold reshapeInPlace. replace (totalSize (shp g) =? totalSize kept) with true; [reflexivity|]. symmetry. apply Z.eqb_eq. rewrite (total_without axes kept 0 K1), W. reflexivity. }
    assert (E2 : forall xd2 : tens, shp xd2 = shp x -> sumDoDiff axes xd2 g' = bind (if shapeEq (shp g') (shp xd2) then Ok g' else repeatLoop (shp xd2) axes g') (fun val => bind (addInto xd2 val) (fun d => Ok (d, g')))).
    { intros xd2 S2. unfold sumDoDiff. assert (LK : length (shp g') = length (shp x)) by (unfold g', kept; cbn [shp]; apply len_ones). destruct (shp g') as [|d0 s0] eqn:EG'; [cbn [length] in LK; lia|]. rewrite <- EG' in *. rewrite S2. replace (Z.of_nat (length (shp g')) =? Z.of_nat (length (shp x)) - Z.of_nat (length axes)) with false; [reflexivity|]. symmetry. apply Z.eqb_neq. lia. }
    destruct (MAIN xd Sd) as [xd' [M1 [M2 M3]]]. exists xd', g'. split; [exact PB|]. split; [rewrite E1 by exact Sd; exact M1|]. split; [exact M2|]. split; [exact M3|]. split; [intro K; congruence|]. intros _. split; [reflexivity|]. intros xd2 S2. destruct (MAIN xd2 S2) as [xd2' [N1 N2]]. exists xd2'. split; [rewrite E2 by exact S2; exact N1|exact N2].
Qed.
End Proofs.
Print Assumptions C74_sum.

(** A 2-by-3 matrix summed over its rows, with a derivative already there; a 2-by-1-by-2
    tensor over its first two axes. *)
Definition mk (s : list Z) (l : list Z) : @tens Z := Tn s (fun idx => nth (Z.to_nat (ravel s idx)) l 0).
Definition val (r : res (@tens Z * @tens Z)) : option (list Z * list Z * list Z) :=
  match r with Ok (t, g) => Some (shp t, map (at_ t) (coords (shp t)), shp g) | _ => None end.
Example C74_ex :
  val (sumDoDiff [0] (mk [2; 3] [1; 1; 1; 2; 2; 2]) (mk [3] [10; 20; 30])) = Some ([2; 3], [11; 21; 31; 12; 22; 32], [1; 3]) /\
  val (sumDoDiff [1; 0] (mk [2; 1; 2] [1; 2; 3; 4]) (mk [2] [10; 20])) = Some ([2; 1; 2], [11; 22; 13; 24], [1; 1; 2]) /\
  val (sumDoDiff [0; 1] (mk [2; 2] [1; 2; 3; 4]) (mk [] [10])) = Some ([2; 2], [11; 12; 13; 14], []).
Proof. vm_compute. auto. Qed.
