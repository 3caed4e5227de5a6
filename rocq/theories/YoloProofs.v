(** Lemmas for YoloProps.v. *)
From Coq Require Import List ZArith QArith Bool Arith Lia.
From Verif Require Import BroadcastModel ShapeGradModel YoloModel YoloSpec.
Import ListNotations.
Local Open Scope nat_scope.

(** ** Index arithmetic *)
Lemma dm_row : forall c r j, j < c -> (r * c + j) / c = r.
Proof. intros. rewrite Nat.div_add_l by lia. rewrite Nat.div_small by lia. lia. Qed.
Lemma dm_col : forall c r j, j < c -> (r * c + j) mod c = j.
Proof. intros. rewrite Nat.add_comm, Nat.mod_add by lia. apply Nat.mod_small; lia. Qed.
Lemma lt_mul : forall a b i j, i < a -> j < b -> i * b + j < a * b.
Proof. intros. assert (S i * b <= a * b) by (apply Nat.mul_le_mono_r; lia). nia. Qed.

(** ** Slices *)
Lemma onSlice_sh : forall rows cols f t, ysh (onSlice rows cols f t) = ysh t.
Proof. intros. unfold onSlice. destruct (ysh t) as [|b [|r [|c [|? ?]]]] eqn:E; cbn [ysh]; congruence. Qed.
Lemma onSlice_at : forall rows cols f t R C r j, ysh t = [1; R; C] -> r < R -> j < C ->
  ydat (onSlice rows cols f t) (r * C + j) = if rows r && cols j then f r j (ydat t (r * C + j)) else ydat t (r * C + j).
Proof. intros rows cols f t R C r j E Hr Hj. unfold onSlice. rewrite E. cbn [ydat]. rewrite dm_row, dm_col by lia. rewrite (Nat.mod_small r R) by lia. reflexivity. Qed.

(** ** The loop over the cells *)
Section Loop.
Variables (G A C : nat).
Hypothesis HA : 0 < A.
Let step := G * A.

Lemma inner_sh : forall i l t, ysh (fold_left (fun u n => onSlice (fun r => (i * A + n <=? r) && Nat.eqb ((r - (i * A + n)) mod (G * A)) 0) (Nat.eqb 0) (fun _ _ v => v + qn i)%Q u) l t) = ysh t.
Proof. induction l; intro t; cbn [fold_left]; [reflexivity|]. rewrite IHl, onSlice_sh. reflexivity. Qed.

Lemma sel : forall i n r, i < G -> n < A ->
  (i * A + n <=? r) && Nat.eqb ((r - (i * A + n)) mod (G * A)) 0 = Nat.eqb (r mod (G * A)) (i * A + n).
Proof.
  intros i n r Hi Hn. pose proof (lt_mul G A i n Hi Hn) as L.
  pose proof (Nat.div_mod_eq r (G * A)) as D. pose proof (Nat.mod_upper_bound r (G * A) ltac:(lia)) as B.
  destruct (Nat.eqb_spec (r mod (G * A)) (i * A + n)) as [E|E].
  - apply andb_true_intro. split; [apply Nat.leb_le; lia|]. apply Nat.eqb_eq.
    replace (r - (i * A + n)) with (0 + r / (G * A) * (G * A)) by lia. rewrite Nat.mod_add by lia. apply Nat.mod_small. lia.
  -
    destruct (Nat.leb_spec (i * A + n) r) as [Q|Q]; [|reflexivity]. cbn [andb]. apply Nat.eqb_neq. intro F.
    apply Nat.mod_divides in F; [|lia]. destruct F as [q F].
    apply E. assert (r = i * A + n + q * (G * A)) as -> by lia. rewrite Nat.mod_add by lia. apply Nat.mod_small. lia.
Qed.

Lemma inner_at : forall i t R r j, i < G -> ysh t = [1; R; C] -> r < R -> j < C -> forall m, m <= A ->
  ydat (fold_left (fun u n => onSlice (fun r => (i * A + n <=? r) && Nat.eqb ((r - (i * A + n)) mod (G * A)) 0) (Nat.eqb 0) (fun _ _ v => v + qn i)%Q u) (seq 0 m) t) (r * C + j)
  = if Nat.eqb 0 j && Nat.eqb (r mod (G * A) / A) i && (r mod (G * A) mod A <? m) then (ydat t (r * C + j) + qn i)%Q else ydat t (r * C + j).
Proof.
  intros i t R r j Hi E Hr Hj. induction m; intro Hm.
  - cbn [seq fold_left]. rewrite andb_false_r. reflexivity.
  - rewrite seq_S, fold_left_app. cbn [fold_left Nat.add]. rewrite onSlice_at with (R := R); [|rewrite inner_sh; exact E|exact Hr|exact Hj].
    rewrite IHm by lia. rewrite sel by lia.
    pose proof (Nat.div_mod_eq (r mod (G * A)) A) as D. pose proof (Nat.mod_upper_bound (r mod (G * A)) A ltac:(lia)) as B.
    destruct (Nat.eqb_spec 0 j) as [J|J]; cbn [andb]; [|rewrite andb_false_r; reflexivity].
    rewrite andb_true_r.
    destruct (Nat.eqb_spec (r mod (G * A)) (i * A + m)) as [X|X].
    + assert (r mod (G * A) / A = i) as Y. { rewrite X. apply dm_row. lia. }
      assert (r mod (G * A) mod A = m) as Z. { rewrite X. apply dm_col. lia. }
      rewrite Y, Z, Nat.eqb_refl. cbn [andb]. rewrite (proj2 (Nat.ltb_ge m m)) by lia. rewrite (proj2 (Nat.ltb_lt m (S m))) by lia. reflexivity.
    + destruct (Nat.eqb_spec (r mod (G * A) / A) i) as [Y|Y]; cbn [andb]; [|reflexivity].
      destruct (Nat.ltb_spec (r mod (G * A) mod A) m) as [Z|Z].
      * rewrite (proj2 (Nat.ltb_lt _ (S m))) by lia. reflexivity.
      * rewrite (proj2 (Nat.ltb_ge _ (S m))); [reflexivity|]. assert (r mod (G * A) mod A <> m); [|lia]. intro W. apply X. rewrite <- W, <- Y. lia.
Qed.

Lemma gridRow_sh : forall i t, ysh (gridRow (G * A) A i t) = ysh t.
Proof. intros. unfold gridRow. rewrite inner_sh, onSlice_sh. reflexivity. Qed.

Lemma loop_sh : forall l t, ysh (fold_left (fun u i => gridRow (G * A) A i u) l t) = ysh t.
Proof. induction l; intro t; cbn [fold_left]; [reflexivity|]. rewrite IHl, gridRow_sh. reflexivity. Qed.

Lemma gridRow_at : forall i t R r j, i < G -> ysh t = [1; R; C] -> r < R -> j < C ->
  ydat (gridRow (G * A) A i t) (r * C + j) =
  if (Nat.eqb 1 j && Nat.eqb (r / (G * A)) i) || (Nat.eqb 0 j && Nat.eqb (r mod (G * A) / A) i) then (ydat t (r * C + j) + qn i)%Q else ydat t (r * C + j).
Proof.
  intros i t R r j Hi E Hr Hj. unfold gridRow. rewrite inner_at with (R := R); [|exact Hi|rewrite onSlice_sh; exact E|exact Hr|exact Hj|lia].
  rewrite onSlice_at with (R := R) by assumption.
  pose proof (Nat.mod_upper_bound (r mod (G * A)) A ltac:(lia)) as B. rewrite (proj2 (Nat.ltb_lt _ A)) by lia. rewrite andb_true_r.
  assert (between (i * (G * A)) (i * (G * A) + G * A) r = Nat.eqb (r / (G * A)) i) as ->.
  { assert (L : 0 < G * A) by nia. unfold between. pose proof (Nat.div_mod_eq r (G * A)) as D. pose proof (Nat.mod_upper_bound r (G * A) ltac:(lia)) as M.
    destruct (Nat.eqb_spec (r / (G * A)) i) as [X|X].
    - subst i. apply andb_true_intro. split; [apply Nat.leb_le|apply Nat.ltb_lt]; nia.
    - apply andb_false_iff. destruct (lt_dec (r / (G * A)) i) as [Y|Y].
      + left. apply Nat.leb_gt. nia.
      + right. apply Nat.ltb_ge. nia. }
  destruct j as [|[|j]]; cbn [Nat.eqb andb orb]; rewrite ?andb_false_r, ?andb_true_r, ?orb_false_r; reflexivity.
Qed.

Lemma loop_at : forall t R r j, ysh t = [1; R; C] -> r < R -> j < C -> forall m, m <= G ->
  ydat (fold_left (fun u i => gridRow (G * A) A i u) (seq 0 m) t) (r * C + j) =
  let c := if Nat.eqb 1 j then r / (G * A) else r mod (G * A) / A in
  if (j <? 2) && (c <? m) then (ydat t (r * C + j) + qn c)%Q else ydat t (r * C + j).
Proof.
  intros t R r j E Hr Hj. induction m; intro Hm.
  - cbn [seq fold_left]. cbv zeta. rewrite (proj2 (Nat.ltb_ge _ 0)), andb_false_r by lia. reflexivity.
  - rewrite seq_S, fold_left_app. cbn [fold_left Nat.add]. rewrite gridRow_at with (R := R); [|lia|rewrite loop_sh; exact E|exact Hr|exact Hj].
    rewrite IHm by lia. cbv zeta.
    destruct j as [|[|j]]; cbn [Nat.eqb andb orb].
    + replace (0 <? 2) with true by reflexivity. cbn [andb].
      destruct (Nat.eqb_spec (r mod (G * A) / A) m) as [X|X].
      * rewrite X. rewrite (proj2 (Nat.ltb_ge m m)), (proj2 (Nat.ltb_lt m (S m))) by lia. reflexivity.
      * destruct (Nat.ltb_spec (r mod (G * A) / A) m); [rewrite (proj2 (Nat.ltb_lt _ (S m))) by lia|rewrite (proj2 (Nat.ltb_ge _ (S m))) by lia]; reflexivity.
    + replace (1 <? 2) with true by reflexivity. cbn [andb]. rewrite orb_false_r.
      destruct (Nat.eqb_spec (r / (G * A)) m) as [X|X].
      * rewrite X. rewrite (proj2 (Nat.ltb_ge m m)), (proj2 (Nat.ltb_lt m (S m))) by lia. reflexivity.
      * destruct (Nat.ltb_spec (r / (G * A)) m); [rewrite (proj2 (Nat.ltb_lt _ (S m))) by lia|rewrite (proj2 (Nat.ltb_ge _ (S m))) by lia]; reflexivity.
    + replace (S (S j) <? 2) with false by (symmetry; apply Nat.ltb_ge; lia). reflexivity.
Qed.
End Loop.

(** ** Regrouping *)
Lemma prodn4 : forall a b c d, prodn [a; b; c; d] = a * b * c * d.
Proof. intros. unfold prodn. cbn [fold_right]. lia. Qed.
Lemma prodn3 : forall a b c, prodn [a; b; c] = a * b * c.
Proof. intros. unfold prodn. cbn [fold_right]. lia. Qed.

(** The entry of the raw tensor that regrouping one image puts at [k]. *)
Definition moved (G A attrs k : nat) : nat := (k / (attrs * A * (G * G)) * (attrs * A) + k mod (attrs * A)) * (G * G) + k / (attrs * A) mod (G * G).

Lemma regroup_ok : forall t B G attrs A, prodn (ysh t) = B * (attrs * A) * (G * G) ->
  regroup t B G attrs A = (Yt [B; G * G * A; attrs] (fun k => ydat t (moved G A attrs k)), true).
Proof.
  intros t B G attrs A E. unfold regroup, reshapeY. rewrite E, prodn3, Nat.eqb_refl. cbn [transpose021 ysh ydat].
  rewrite !prodn3. replace (B * (G * G) * (attrs * A)) with (B * (G * G * A) * attrs) by lia. rewrite Nat.eqb_refl. reflexivity.
Qed.
Lemma regroup_bad : forall t B G attrs A, prodn (ysh t) <> B * (attrs * A) * (G * G) -> regroup t B G attrs A = (t, false).
Proof. intros t B G attrs A E. unfold regroup, reshapeY. rewrite prodn3. apply Nat.eqb_neq in E. rewrite E. reflexivity. Qed.

Lemma moved_at : forall G A attrs p n j, p < G * G -> n < A -> j < attrs ->
  moved G A attrs ((p * A + n) * attrs + j) = (n * attrs + j) * (G * G) + p.
Proof.
  intros G A attrs p n j Hp Hn Hj. unfold moved.
  assert (X : n * attrs + j < attrs * A). { rewrite (Nat.mul_comm attrs A). apply lt_mul; lia. }
  replace ((p * A + n) * attrs + j) with (p * (attrs * A) + (n * attrs + j)) by lia.
  rewrite dm_row, dm_col by exact X. rewrite (Nat.mod_small p) by lia.
  rewrite Nat.div_small; [lia|]. rewrite (Nat.mul_comm (attrs * A)). apply lt_mul; lia.
Qed.

(** ** Evaluation of one image *)
Section Eval.
Variables sg ex : Q -> Q.

(** What evaluation puts at row [r], column [j], from the regrouped entry. *)
Definition decoded (stride G A : nat) (cur : list Q) (r j : nat) (v : Q) : Q :=
  match j with
  | 0 => ((sg v + qn (r mod (G * A) / A)) * qn stride)%Q
  | 1 => ((sg v + qn (r / (G * A))) * qn stride)%Q
  | 2 | 3 => (ex v * (nth ((r * 2 + (j - 2)) mod length cur) cur 0 / qn stride) * qn stride)%Q
  | _ => sg v
  end.

Lemma evaluate_ok : forall t stride G attrs A cur, 5 <= attrs -> 0 < A -> prodn (ysh t) = attrs * A * (G * G) ->
  exists out, evaluate sg ex t 1 stride G attrs A cur = (out, Ok tt) /\ ysh out = [1; G * G * A; attrs] /\
    (forall r j, r < G * G * A -> j < attrs ->
       ydat out (r * attrs + j) = decoded stride G A cur r j (ydat t (moved G A attrs (r * attrs + j)))).
Proof.
  intros t stride G attrs A cur Ha HA E. unfold evaluate. rewrite regroup_ok by lia. cbn [negb].
  replace (Nat.eqb 1 1) with true by reflexivity. cbn [negb]. eexists. split; [reflexivity|].
  split; [rewrite !onSlice_sh, loop_sh, !onSlice_sh; reflexivity|].
  intros r j Hr Hj. set (R := G * G * A) in *.
  assert (Sh : forall X Y, ysh X = ysh Y -> ysh Y = [1; R; attrs] -> ysh X = [1; R; attrs]) by (intros; congruence).
  set (t1 := Yt _ _). assert (E1 : ysh t1 = [1; R; attrs]) by reflexivity.
  rewrite onSlice_at with (R := R); [|rewrite !onSlice_sh, loop_sh, !onSlice_sh; exact E1|exact Hr|exact Hj].
  rewrite onSlice_at with (R := R); [|rewrite !onSlice_sh, loop_sh, !onSlice_sh; exact E1|exact Hr|exact Hj].
  rewrite onSlice_at with (R := R); [|rewrite loop_sh, !onSlice_sh; exact E1|exact Hr|exact Hj].
  rewrite loop_at with (R := R); [|exact HA|rewrite !onSlice_sh; exact E1|exact Hr|exact Hj|lia].
  rewrite onSlice_at with (R := R); [|rewrite !onSlice_sh; exact E1|exact Hr|exact Hj].
  rewrite onSlice_at with (R := R); [|exact E1|exact Hr|exact Hj].
  assert (G0 : 0 < G) by (destruct G; [unfold R in Hr; lia|lia]).
  assert (c0 : r mod (G * A) / A < G).
  { apply Nat.div_lt_upper_bound; [lia|]. pose proof (Nat.mod_upper_bound r (G * A) ltac:(nia)). lia. }
  assert (c1 : r / (G * A) < G).
  { apply Nat.div_lt_upper_bound; [nia|]. unfold R in Hr. nia. }
  unfold anyRow, between, decoded. cbv zeta. cbn [andb].
  destruct j as [|[|[|[|j]]]].
  - change (0 <? 2) with true. rewrite (proj2 (Nat.ltb_lt _ G)) by exact c0. reflexivity.
  - change (1 <? 2) with true. rewrite (proj2 (Nat.ltb_lt _ G)) by exact c1. reflexivity.
  - reflexivity.
  - reflexivity.
  - replace (S (S (S (S j))) <? attrs) with true by (symmetry; apply Nat.ltb_lt; lia).
    replace (S (S (S (S j))) <? 4) with false by (symmetry; apply Nat.ltb_ge; lia).
    replace (S (S (S (S j))) <? 2) with false by (symmetry; apply Nat.ltb_ge; lia).
    rewrite !andb_false_r. cbn [Nat.leb andb]. reflexivity.
Qed.
End Eval.

(** ** The anchors of the masks *)
Lemma current_ok : forall an ms i, Forall (fun m => m < Z.of_nat (length an / 2))%Z ms -> (i + length ms) * 2 <= length an ->
  currentAnchors an i ms = Ok (firstn (length ms * 2) (skipn (i * 2) an)).
Proof.
  intros an. induction ms as [|m ms IH]; intros i F L; [reflexivity|].
  cbn [currentAnchors length] in *. pose proof (Forall_inv F) as F0. cbv beta in F0. rewrite (proj2 (Z.leb_gt _ _)) by lia.
  destruct (nth_error an (i * 2)) as [a|] eqn:Ea; [|apply nth_error_None in Ea; lia].
  destruct (nth_error an (i * 2 + 1)) as [b|] eqn:Eb; [|apply nth_error_None in Eb; lia].
  rewrite IH; [|exact (Forall_inv_tail F)|lia]. cbn [bind]. f_equal.
  assert (Sk : forall k x, nth_error an k = Some x -> skipn k an = x :: skipn (S k) an).
  { clear. induction an as [|y l IH]; intros k x Hx; [destruct k; discriminate Hx|]. destruct k; cbn in Hx |- *; [injection Hx as ->; reflexivity|]. apply IH. exact Hx. }
  rewrite (Sk _ _ Ea). replace (S (i * 2)) with (i * 2 + 1) by lia. rewrite (Sk _ _ Eb).
  replace (S (length ms) * 2) with (S (S (length ms * 2))) by lia. cbn [firstn]. replace (S (i * 2 + 1)) with (S i * 2) by lia. reflexivity.
Qed.
Lemma current_refused : forall an ms i, Exists (fun m => Z.of_nat (length an / 2) <= m)%Z ms -> (i + length ms) * 2 <= length an ->
  currentAnchors an i ms = Err.
Proof.
  intros an. induction ms as [|m ms IH]; intros i F L; [inversion F|].
  cbn [currentAnchors length] in *. destruct (Z.leb_spec (Z.of_nat (length an / 2)) m) as [X|X]; [reflexivity|].
  destruct (nth_error an (i * 2)) as [a|] eqn:Ea; [|apply nth_error_None in Ea; lia].
  destruct (nth_error an (i * 2 + 1)) as [b|] eqn:Eb; [|apply nth_error_None in Eb; lia].
  rewrite IH; [reflexivity| |lia]. inversion F as [? ? Hd|? ? Tl]; subst; [lia|exact Tl].
Qed.
Lemma current_panic : forall an ms i, Forall (fun m => m < Z.of_nat (length an / 2))%Z ms -> length an < (i + length ms) * 2 -> ms <> [] ->
  currentAnchors an i ms = Panic.
Proof.
  intros an. induction ms as [|m ms IH]; intros i F L N; [congruence|].
  cbn [currentAnchors length] in *. pose proof (Forall_inv F) as F0. cbv beta in F0. rewrite (proj2 (Z.leb_gt _ _)) by lia.
  destruct (nth_error an (i * 2)) as [a|] eqn:Ea; [|reflexivity].
  destruct (nth_error an (i * 2 + 1)) as [b|] eqn:Eb; [|reflexivity].
  assert (i * 2 + 1 < length an) by (apply nth_error_Some; congruence).
  rewrite IH; [reflexivity|exact (Forall_inv_tail F)|lia|]. intros ->. cbn [length] in L. lia.
Qed.
Lemma nth_firstn : forall (l : list Q) n k, k < n -> nth k (firstn n l) 0%Q = nth k l 0%Q.
Proof. induction l; intros n k H; [rewrite firstn_nil; reflexivity|]. destruct n; [lia|]. destruct k; cbn; [reflexivity|]. apply IHl. lia. Qed.
