(** Proofs for Sparsemax. *)
From Coq Require Import Arith Reals List Bool Lia Lra Permutation.
From Verif Require Import Sums LoopModel LoopProofs ConvProofs SparsemaxModel SparsemaxSpec.
Import ListNotations.
Local Open Scope R_scope.

Lemma gtR_true x y : gtR x y = true <-> y < x.
Proof. unfold gtR. destruct (Rlt_dec y x); split; intro; try lra; try discriminate; auto. Qed.
Lemma gtR_false x y : gtR x y = false <-> x <= y.
Proof. unfold gtR. destruct (Rlt_dec y x); split; intro; try lra; try discriminate; auto. Qed.

(** ** Sorting *)
Inductive desc : list R -> Prop :=
| desc_nil : desc []
| desc_cons x l : (forall y, In y l -> y <= x) -> desc l -> desc (x :: l).

Lemma insertDesc_perm x l : Permutation (x :: l) (insertDesc x l).
Proof.
  induction l as [|y l IH]; cbn; [auto|]. destruct (gtR y x); [|auto].
  eapply perm_trans; [apply perm_swap|]. constructor. exact IH.
Qed.
Lemma sortDesc_perm l : Permutation l (sortDesc l).
Proof.
  induction l as [|x l IH]; cbn; [auto|]. eapply perm_trans; [|apply insertDesc_perm]. constructor. exact IH.
Qed.
Lemma insertDesc_desc x l : desc l -> desc (insertDesc x l).
Proof.
  induction l as [|y l IH]; intro D; cbn; [constructor; [intros ? []|constructor]|].
  inversion D as [|? ? Hy Dl]; subst. destruct (gtR y x) eqn:E.
  - apply gtR_true in E. constructor; [|auto]. intros z Hz.
    apply (Permutation_in _ (Permutation_sym (insertDesc_perm x l))) in Hz. destruct Hz as [<-|Hz]; [lra|auto].
  - apply gtR_false in E. constructor; [|auto]. intros z [<-|Hz]; [lra|]. specialize (Hy z Hz). lra.
Qed.
Lemma sortDesc_desc l : desc (sortDesc l).
Proof. induction l; cbn; [constructor|apply insertDesc_desc; auto]. Qed.

Lemma total_app l l' : total (l ++ l') = total l + total l'.
Proof. induction l as [|x l IH]; cbn; [lra|]. rewrite IH. lra. Qed.
Lemma total_perm l l' : Permutation l l' -> total l = total l'.
Proof. induction 1; cbn; lra. Qed.

Lemma desc_app l x r : desc (l ++ x :: r) -> (forall y, In y l -> x <= y) /\ (forall y, In y r -> y <= x).
Proof.
  induction l as [|a l IH]; cbn; intro D; inversion D as [|? ? Ha Dl]; subst.
  - split; [intros ? []|exact Ha].
  - destruct (IH Dl) as [H1 H2]. split; [|exact H2].
    intros y [<-|Hy]; [apply Ha, in_or_app; right; left; reflexivity|auto].
Qed.

(** ** The threshold *)
Definition st0 := {| sj := 0; cumSum := 0; prevCum := 0; maxIndex := 0 |}.

(** While scanning: either everything so far is in the support, or the support was
    closed by an element that fails the test. *)
Definition scanInv (l : list R) (st : scan) : Prop :=
  sj st = length l /\ prevCum st = total l /\
  ((maxIndex st = length l /\ cumSum st = total l /\
    (forall x r, l = r ++ [x] -> INR (length l) * x > total l - 1)) \/
   (exists p x q r, l = p ++ [x] ++ q :: r /\ maxIndex st = length (p ++ [x]) /\ cumSum st = total (p ++ [x]) /\
      INR (length (p ++ [x])) * x > total (p ++ [x]) - 1 /\
      INR (length (p ++ [x])) * q <= total (p ++ [x]) - 1 /\
      (forall y r', l = r' ++ [y] -> 1 + INR (length l) * y <= total l))).

Lemma scan_inv l : desc l -> scanInv l (fold_left scanStep l st0).
Proof.
  induction l as [|x l IH] using rev_ind; intro D.
  - split; [reflexivity|]. split; [reflexivity|]. left. split; [reflexivity|]. split; [reflexivity|].
    intros x r E. destruct r; discriminate.
  - assert (Dl : desc l).
    { clear -D. induction l as [|a l IH]; [constructor|]. cbn in D. inversion D as [|? ? Ha Dl]; subst.
      constructor; [intros; apply Ha, in_or_app; auto|auto]. }
    specialize (IH Dl). rewrite fold_left_app. cbn [fold_left].
    set (st := fold_left scanStep l st0) in *. destruct IH as (Ej & Ep & C).
    assert (Len : length (l ++ [x]) = S (length l)) by (rewrite app_length; cbn; lia).
    assert (Tot : total (l ++ [x]) = total l + x) by (rewrite total_app; cbn; lra).
    assert (Last : forall y r, l ++ [x] = r ++ [y] -> y = x).
    { intros y r E. apply app_inj_tail in E. destruct E; congruence. }
    unfold scanStep. rewrite Ej, Ep. rewrite Nat.add_1_r.
    destruct (gtR (1 + INR (S (length l)) * x) (total l + x)) eqn:G.
    + apply gtR_true in G. split; [cbn; lia|]. split; [cbn; lra|].
      destruct C as [(M & Cs & T)|(p & a & q & r & El & M & Cs & T1 & T2 & T3)].
      * left. cbn [maxIndex cumSum]. split; [lia|]. split; [lra|]. intros y r' E. rewrite (Last y r' E), Len, Tot. lra.
      * exfalso.
        assert (exists b l', l = l' ++ [b]) as (b & l' & Eb).
        { destruct l as [|c l] using rev_ind; [destruct p; discriminate|eauto]. }
        specialize (T3 b l' Eb).
        assert (x <= b).
        { rewrite Eb, <- app_assoc in D. cbn in D. apply desc_app in D. apply D. left. reflexivity. }
        rewrite S_INR in G. assert (0 <= INR (length l)) by apply pos_INR.
        assert (INR (length l) * x <= INR (length l) * b) by (apply Rmult_le_compat_l; lra). lra.
    + apply gtR_false in G. split; [cbn; lia|]. split; [cbn; lra|]. right. cbn [maxIndex cumSum].
      assert (T3 : forall y r', l ++ [x] = r' ++ [y] -> 1 + INR (length (l ++ [x])) * y <= total (l ++ [x])).
      { intros y r' E. rewrite (Last y r' E), Len, Tot. lra. }
      destruct C as [(M & Cs & T)|(p & a & q & r & El & M & Cs & T1 & T2 & T4)].
      * destruct l as [|b l'] using rev_ind.
        { cbn in G. exfalso. lra. }
        clear IHl'. exists l', b, x, []. split; [rewrite <- app_assoc; reflexivity|].
        split; [exact M|]. split; [exact Cs|]. split; [apply (T b l'); reflexivity|]. split; [|exact T3].
        rewrite S_INR in G. lra.
      * exists p, a, q, (r ++ [x]). split; [rewrite El, <- app_assoc; reflexivity|].
        split; [exact M|]. split; [exact Cs|]. auto.
Qed.

Definition clip (tau v : R) : R := if gtR (v - tau) 0 then v - tau else 0.

Lemma total_clip_all tau l : (forall y, In y l -> tau < y) -> total (map (clip tau) l) = total l - INR (length l) * tau.
Proof.
  induction l as [|x l IH]; intro H; [cbn; lra|]. cbn [map total length]. rewrite IH by (intros; apply H; right; auto).
  unfold clip. assert (E : gtR (x - tau) 0 = true) by (apply gtR_true; specialize (H x (or_introl eq_refl)); lra).
  rewrite E, S_INR. lra.
Qed.
Lemma total_clip_none tau l : (forall y, In y l -> y <= tau) -> total (map (clip tau) l) = 0.
Proof.
  induction l as [|x l IH]; intro H; [reflexivity|]. cbn [map total]. rewrite IH by (intros; apply H; right; auto).
  unfold clip. assert (E : gtR (x - tau) 0 = false) by (apply gtR_false; specialize (H x (or_introl eq_refl)); lra).
  rewrite E. lra.
Qed.

Lemma desc_prefix_ge p x q r : desc (p ++ [x] ++ q :: r) ->
  (forall y, In y (p ++ [x]) -> x <= y) /\ (forall y, In y (q :: r) -> y <= q).
Proof.
  intro D. cbn in D. split.
  - intros y Hy. apply in_app_or in Hy. destruct Hy as [Hy|[<-|[]]]; [|lra].
    apply desc_app in D. apply D. exact Hy.
  - assert (D2 : desc ((p ++ [x]) ++ q :: r)) by (rewrite <- app_assoc; exact D).
    apply desc_app in D2. intros y [<-|Hy]; [lra|apply D2, Hy].
Qed.

Lemma threshold_sum l : desc l -> l <> [] -> total (map (clip (threshold l)) l) = 1.
Proof.
  intros D Ne. unfold threshold. fold st0. pose proof (scan_inv l D) as (Ej & Ep & C).
  set (st := fold_left scanStep l st0) in *.
  destruct C as [(M & Cs & T)|(p & a & q & r & El & M & Cs & T1 & T2 & T3)].
  - rewrite M, Cs. destruct l as [|b l'] using rev_ind; [congruence|]. clear IHl' Ne.
    specialize (T b l' eq_refl).
    assert (Pos : 0 < INR (length (l' ++ [b]))) by (apply lt_0_INR; rewrite app_length; cbn; lia).
    set (n := INR (length (l' ++ [b]))) in *. set (s := total (l' ++ [b])) in *.
    assert (Tb : (s - 1) / n < b).
    { apply Rmult_lt_reg_l with n; [exact Pos|]. field_simplify; lra. }
    rewrite total_clip_all.
    + fold n s. field. lra.
    + intros y Hy. apply in_app_or in Hy. destruct Hy as [Hy|[<-|[]]]; [|exact Tb].
      apply desc_app in D. destruct D as [D _]. specialize (D y Hy). lra.
  - rewrite M, Cs. rewrite El in D |- *. destruct (desc_prefix_ge _ _ _ _ D) as [D1 D2].
    assert (Pos : 0 < INR (length (p ++ [a]))) by (apply lt_0_INR; rewrite app_length; cbn; lia).
    set (n := INR (length (p ++ [a]))) in *. set (s := total (p ++ [a])) in *.
    rewrite app_assoc, map_app, total_app.
    assert (Ta : (s - 1) / n < a).
    { apply Rmult_lt_reg_l with n; [exact Pos|]. field_simplify; lra. }
    assert (Tq : q <= (s - 1) / n).
    { apply Rmult_le_reg_l with n; [exact Pos|]. field_simplify; lra. }
    rewrite total_clip_all, total_clip_none.
    + fold n s. field. lra.
    + intros y Hy. specialize (D2 y Hy). lra.
    + intros y Hy. specialize (D1 y Hy). lra.
Qed.

(** ** The row *)
Lemma total_map_perm (f : R -> R) l l' : Permutation l l' -> total (map f l) = total (map f l').
Proof. intro P. apply total_perm. apply Permutation_map. exact P. Qed.

(** The output is the row clipped at some level, and sums to one. *)
Lemma sparsemaxRow_spec low row : row <> [] ->
  exists tau, sparsemaxRow low row = map (clip tau) row /\ total (map (clip tau) row) = 1.
Proof.
  intro Ne. unfold sparsemaxRow. set (m := rowMax low row).
  set (stable := map (fun x => x - m) row). set (t := threshold (sortDesc stable)).
  exists (t + m).
  assert (E : map (clip t) stable = map (clip (t + m)) row).
  { unfold stable. rewrite map_map. apply map_ext. intro v. unfold clip.
    replace (v - m - t) with (v - (t + m)) by ring. reflexivity. }
  split; [exact E|]. rewrite <- E. rewrite (total_map_perm _ _ _ (sortDesc_perm stable)).
  apply threshold_sum; [apply sortDesc_desc|].
  intro Z. assert (P := sortDesc_perm stable). rewrite Z in P. apply Permutation_sym, Permutation_nil in P.
  unfold stable in P. destruct row; [congruence|discriminate].
Qed.

Lemma clip_nonneg tau v : 0 <= clip tau v.
Proof. unfold clip. destruct (gtR (v - tau) 0) eqn:E; [apply gtR_true in E; lra|lra]. Qed.

(** How much farther another point of the simplex is. *)
Lemma clip_gap tau row p : length p = length row -> total (map (clip tau) row) = 1 -> in_simplex p ->
  sqdist (map (clip tau) row) row + sqdist p (map (clip tau) row) <= sqdist p row.
Proof.
  intros Lp S1 [Pp Tp].
  assert (G : forall row p, length p = length row -> (forall x, In x p -> 0 <= x) ->
    sqdist p row - sqdist (map (clip tau) row) row >=
      sqdist p (map (clip tau) row) + - 2 * tau * (total p - total (map (clip tau) row))).
  { clear. induction row as [|v row IH]; intros [|a p] L Hp; cbn [sqdist map total]; try (discriminate L); [lra|].
    assert (Ha : 0 <= a) by (apply Hp; left; reflexivity).
    specialize (IH p ltac:(simpl in L; lia) ltac:(intros; apply Hp; right; auto)).
    assert (H : (a - v) * (a - v) - (clip tau v - v) * (clip tau v - v) >=
      (a - clip tau v) * (a - clip tau v) + - 2 * tau * (a - clip tau v)).
    { unfold clip. destruct (gtR (v - tau) 0) eqn:E.
      - right. ring.
      - apply gtR_false in E.
        assert (X : (a - v) * (a - v) - (0 - v) * (0 - v) - ((a - 0) * (a - 0) + - 2 * tau * (a - 0)) = 2 * (a * (tau - v))) by ring.
        assert (0 <= a * (tau - v)) by (apply Rmult_le_pos; lra). lra. }
    lra. }
  specialize (G row p Lp Pp). rewrite Tp, S1 in G. lra.
Qed.

Lemma sqdist_nonneg p : forall x, 0 <= sqdist p x.
Proof.
  induction p as [|a p IH]; intros [|b x]; cbn; try lra. specialize (IH x).
  pose proof (Rle_0_sqr (a - b)) as Q. unfold Rsqr in Q. lra.
Qed.
Lemma sqdist_zero p : forall x, length p = length x -> sqdist p x <= 0 -> p = x.
Proof.
  induction p as [|a p IH]; intros [|b x] L H; cbn in *; try discriminate; [reflexivity|].
  pose proof (Rle_0_sqr (a - b)) as Q. unfold Rsqr in Q. pose proof (sqdist_nonneg p x).
  f_equal; [|apply IH; [lia|lra]].
  assert (Z : (a - b) * (a - b) = 0) by lra. apply Rmult_integral in Z. destruct Z; lra.
Qed.

Lemma clip_nearest tau row : total (map (clip tau) row) = 1 -> nearest (map (clip tau) row) row.
Proof.
  intro S1. split; [apply map_length|]. split.
  - split; [|exact S1]. intros x Hx. apply in_map_iff in Hx. destruct Hx as [v [<- _]]. apply clip_nonneg.
  - intros p Lp Sp. pose proof (clip_gap tau row p Lp S1 Sp). pose proof (sqdist_nonneg p (map (clip tau) row)). lra.
Qed.

Lemma nearest_unique tau row y : total (map (clip tau) row) = 1 -> nearest y row -> y = map (clip tau) row.
Proof.
  intros S1 (L & Sy & M). apply sqdist_zero; [rewrite map_length; exact L|].
  pose proof (clip_gap tau row y L S1 Sy).
  destruct (clip_nearest tau row S1) as (L' & S' & _). specialize (M _ L' S'). lra.
Qed.

(** Two levels with the same total give the same row. *)
Lemma clip_mono t t' v : t <= t' -> clip t' v <= clip t v.
Proof.
  intro H. unfold clip. destruct (gtR (v - t) 0) eqn:E; destruct (gtR (v - t') 0) eqn:E';
    rewrite ?gtR_true, ?gtR_false in *; lra.
Qed.
Lemma clip_unique_le t t' row : t <= t' -> total (map (clip t) row) = total (map (clip t') row) ->
  map (clip t) row = map (clip t') row.
Proof.
  intro H.
  assert (Le : forall l, total (map (clip t') l) <= total (map (clip t) l)).
  { induction l as [|v l IH]; cbn; [lra|]. assert (X := clip_mono t t' v H). lra. }
  induction row as [|v row IH]; cbn [map total]; intro E; [reflexivity|].
  assert (X := clip_mono t t' v H). assert (Y := Le row).
  f_equal; [lra|apply IH; lra].
Qed.
Lemma clip_unique t t' row : total (map (clip t) row) = total (map (clip t') row) ->
  map (clip t) row = map (clip t') row.
Proof.
  intro E. destruct (Rle_dec t t'); [apply clip_unique_le; auto|]. symmetry. apply clip_unique_le; [lra|auto].
Qed.

(** ** The gradient *)
Lemma sumR_total l : sumR l = total l.
Proof.
  unfold sumR. assert (G : forall l a, fold_left Rplus l a = a + total l).
  { induction l0 as [|x l0 IH]; intro a; cbn; [lra|]. rewrite IH. lra. }
  rewrite G. lra.
Qed.

Lemma combine_map_l {A B C} (f : A -> B) (l : list A) (l' : list C) :
  combine (map f l) l' = map (fun p => (f (fst p), snd p)) (combine l l').
Proof. revert l'. induction l as [|a l IH]; intros [|c l']; cbn; try reflexivity. rewrite IH. reflexivity. Qed.

Definition supp (tau v : R) : R := if gtR v tau then 1 else 0.

Lemma nonZero_clip tau v : nonZero (clip tau v) = supp tau v.
Proof.
  unfold nonZero, supp, clip. destruct (gtR (v - tau) 0) eqn:E; destruct (gtR v tau) eqn:F;
    rewrite ?gtR_true, ?gtR_false in *; try lra; destruct (Req_EM_T _ 0); try lra; reflexivity.
Qed.

(** inner products with masked vectors *)
Lemma inner_map2 (m x : list R) (a : R) : forall g, length m = length x -> length g = length x ->
  inner x (map (fun p => fst p * (snd p - a)) (combine m g)) =
  inner (map (fun p => fst p * snd p) (combine m x)) g - a * inner m x.
Proof.
  revert m. induction x as [|u x IH]; intros [|s m] [|g0 g] Lm Lg; cbn in *; try discriminate; try lra.
  rewrite IH by lia. lra.
Qed.

Lemma inner_comm p q : inner p q = inner q p.
Proof. revert q. induction p as [|a p IH]; intros [|b q]; cbn; try reflexivity. rewrite IH. lra. Qed.

Lemma total_combine m g : length m = length g -> total (map (fun p => fst p * snd p) (combine m g)) = inner m g.
Proof. revert g. induction m as [|a m IH]; intros [|b g] L; cbn in *; try discriminate; try lra. rewrite IH by lia. lra. Qed.

(** <u, M (g - a/b)> = <M (u - c/b), g>, the masked centring being symmetric. *)
Lemma centring_symmetric m u g : length m = length u -> length g = length u ->
  inner u (map (fun p => fst p * (snd p - inner m g / total m)) (combine m g)) =
  inner (map (fun p => fst p * (snd p - inner m u / total m)) (combine m u)) g.
Proof.
  intros Lm Lg.
  rewrite (inner_comm (map (fun p => fst p * (snd p - inner m u / total m)) (combine m u)) g).
  rewrite (inner_map2 m u _ g) by congruence. rewrite (inner_map2 m g _ u) by congruence.
  assert (E : inner (map (fun p : R * R => fst p * snd p) (combine m u)) g = inner (map (fun p : R * R => fst p * snd p) (combine m g)) u).
  { clear -Lm Lg. revert m g Lm Lg. induction u as [|a u IH]; intros [|s m] [|b g] Lm Lg; cbn in *; try discriminate; try lra.
    rewrite IH by lia. lra. }
  rewrite E. unfold Rdiv. ring.
Qed.

Lemma along_length x u t : length x = length u -> length (along x u t) = length u.
Proof. revert u. induction x as [|a x IH]; intros [|b u] L; cbn in *; try discriminate; try reflexivity. rewrite IH by lia. reflexivity. Qed.

(** Near a row without ties the clipped row moves linearly. *)
Lemma clip_along tau c row u : (forall v, In v row -> v <> tau) -> length row = length u ->
  exists d, 0 < d /\ forall t, Rabs t < d ->
    map (clip (tau + t * c)) (along row u t) =
    along (map (clip tau) row) (map (fun p => fst p * (snd p - c)) (combine (map (supp tau) row) u)) t.
Proof.
  revert u. induction row as [|v row IH]; intros [|b u] Ht L; try discriminate L.
  - exists 1. split; [lra|]. reflexivity.
  - destruct (IH u) as [d1 [D1 H1]]; [intros; apply Ht; right; auto|simpl in L; lia|].
    assert (Hv : v <> tau) by (apply Ht; left; reflexivity).
    set (gap := Rabs (v - tau)). assert (Gp : 0 < gap) by (apply Rabs_pos_lt; lra).
    set (d2 := gap / (1 + Rabs (b - c))). assert (Db := Rabs_pos (b - c)).
    assert (D2 : 0 < d2) by (apply Rdiv_lt_0_compat; lra).
    exists (Rmin d1 d2). split; [apply Rmin_pos; assumption|]. intros t Hlt.
    assert (T1 : Rabs t < d1) by (eapply Rlt_le_trans; [exact Hlt|apply Rmin_l]).
    assert (T2 : Rabs t < d2) by (eapply Rlt_le_trans; [exact Hlt|apply Rmin_r]).
    cbn [along map combine fst snd]. rewrite H1 by exact T1. f_equal.
    assert (Small : Rabs (t * (b - c)) < gap).
    { rewrite Rabs_mult. apply Rle_lt_trans with (Rabs t * (1 + Rabs (b - c))).
      - apply Rmult_le_compat_l; [apply Rabs_pos|lra].
      - unfold d2 in T2. apply Rmult_lt_reg_r with (/ (1 + Rabs (b - c))); [apply Rinv_0_lt_compat; lra|].
        rewrite Rmult_assoc, Rinv_r, Rmult_1_r by lra. exact T2. }
    unfold clip, supp. unfold gap in Small. clearbody d2. clear - Small Hv.
    destruct (gtR v tau) eqn:E1; destruct (gtR (v - tau) 0) eqn:E2; rewrite ?gtR_true, ?gtR_false in *; try lra.
    + rewrite (Rabs_right (v - tau)) in Small by lra. apply Rabs_def2 in Small.
      assert (E3 : gtR (v + t * b - (tau + t * c)) 0 = true) by (apply gtR_true; lra). rewrite E3. ring.
    + rewrite (Rabs_left (v - tau)) in Small by lra. apply Rabs_def2 in Small.
      assert (E3 : gtR (v + t * b - (tau + t * c)) 0 = false) by (apply gtR_false; lra). rewrite E3. ring.
Qed.

Lemma total_along y w t : length y = length w -> total (along y w t) = total y + t * total w.
Proof. revert w. induction y as [|a y IH]; intros [|b w] L; cbn in *; try discriminate; try lra. rewrite IH by lia. lra. Qed.

Lemma total_mask c m u : length m = length u ->
  total (map (fun p => fst p * (snd p - c)) (combine m u)) = inner m u - c * total m.
Proof. revert u. induction m as [|a m IH]; intros [|b u] L; cbn in *; try discriminate; try lra. rewrite IH by lia. lra. Qed.

Lemma supp_total_pos tau row : total (map (clip tau) row) = 1 -> 0 < total (map (supp tau) row).
Proof.
  intro H.
  assert (G : forall l, 0 <= total (map (supp tau) l)).
  { induction l as [|v l IH]; cbn; [lra|]. unfold supp at 1. destruct (gtR v tau); lra. }
  assert (K : forall l, total (map (clip tau) l) <> 0 -> 0 < total (map (supp tau) l)).
  { induction l as [|v l IH]; cbn; [lra|]. intro N. unfold supp at 1. destruct (gtR v tau) eqn:E.
    - specialize (G l). lra.
    - assert (clip tau v = 0).
      { unfold clip. destruct (gtR (v - tau) 0) eqn:F; rewrite ?gtR_true, ?gtR_false in *; lra. }
      assert (0 < total (map (supp tau) l)) by (apply IH; lra). lra. }
  apply K. lra.
Qed.

Lemma sparsemaxRow_eq low row t : row <> [] -> total (map (clip t) row) = 1 -> sparsemaxRow low row = map (clip t) row.
Proof.
  intros Ne H. destruct (sparsemaxRow_spec low row Ne) as [t' [-> E]]. apply clip_unique. congruence.
Qed.

Lemma sparsemaxRow_length low row : length (sparsemaxRow low row) = length row.
Proof. unfold sparsemaxRow. rewrite !map_length. reflexivity. Qed.

Lemma sparsemaxData_ok low from to data : length data = (from * to)%nat ->
  sparsemaxData low from to data = Some (flat_map (fun i => sparsemaxRow low (chunk data to i)) (seq 0 from)).
Proof.
  intro H. unfold sparsemaxData.
  rewrite <- (loop_append from (fun i => match aslice data (i * to) ((i + 1) * to) with Some r => Some (sparsemaxRow low r) | None => None end)
     (fun i => sparsemaxRow low (chunk data to i))).
  - unfold loop. apply foldM_ext. intros i acc Hi. destruct (aslice _ _ _); reflexivity.
  - intros i Hi. rewrite (aslice_chunk data to i from) by assumption. reflexivity.
Qed.

Lemma chunk_flat_map {A} (f : nat -> list A) m n i : (forall k, (k < n)%nat -> length (f k) = m) -> (i < n)%nat ->
  chunk (flat_map f (seq 0 n)) m i = f i.
Proof.
  intros H Hi. unfold chunk.
  replace (seq 0 n) with (seq 0 i ++ i :: seq (S i) (n - S i))%list.
  2: { change (i :: seq (S i) (n - S i)) with (seq i (S (n - S i))). rewrite <- seq_app. f_equal. lia. }
  rewrite flat_map_app. cbn [flat_map].
  assert (L : length (flat_map f (seq 0 i)) = (i * m)%nat).
  { apply flat_map_seq_length. intros k Hk. apply H. lia. }
  rewrite skipn_app, L, Nat.sub_diag, skipn_all2 by lia. cbn [skipn app].
  rewrite firstn_app, (H i Hi), Nat.sub_diag. cbn [firstn]. rewrite app_nil_r. apply firstn_all2. rewrite (H i Hi). lia.
Qed.

(** the gradient operator in terms of the mask *)
Lemma sparsemaxDiffRow_mask tau row g : length g = length row ->
  sparsemaxDiffRow (map (clip tau) row) g =
  map (fun p => fst p * (snd p - inner (map (supp tau) row) g / total (map (supp tau) row)))
      (combine (map (supp tau) row) g).
Proof.
  intro L. unfold sparsemaxDiffRow. rewrite map_map.
  rewrite (map_ext (fun x => nonZero (clip tau x)) (supp tau)) by (intro; apply nonZero_clip).
  rewrite !sumR_total, total_combine by (rewrite map_length; congruence). reflexivity.
Qed.
