(** Proofs about the loading and folding of weights. *)
From Coq Require Import List Arith QArith Bool Lia Lqa.
From Verif Require Import BroadcastModel ShapeGradModel FoldModel FoldSpec.
Import ListNotations.
Local Open Scope nat_scope.

Lemma setQ_length l : forall i v, length (setQ l i v) = length l.
Proof. induction l as [|x l IH]; intros [|i] v; cbn; auto. Qed.
Lemma setQ_nth l : forall i v x, i < length l -> nth x (setQ l i v) 0%Q = if x =? i then v else nth x l 0%Q.
Proof.
  induction l as [|y l IH]; intros [|i] v [|x] H; cbn in *; try lia; auto.
  rewrite IH by lia. destruct (x =? i); reflexivity.
Qed.
Lemma getQ_ok l i : i < length l -> getQ l i = Ok (nth i l 0%Q).
Proof. intros H. unfold getQ. rewrite (nth_error_nth' l 0%Q H). reflexivity. Qed.
Lemma putQ_ok l i v : i < length l -> putQ l i v = Ok (setQ l i v).
Proof. intros H. unfold putQ. apply Nat.ltb_lt in H. rewrite H. reflexivity. Qed.

Lemma scaleRow_spec n : forall j base sc k, base + j + n <= length k ->
  exists k', scaleRow n j base sc k = Ok k' /\ length k' = length k /\
    forall x, nth x k' 0%Q = if (base + j <=? x) && (x <? base + j + n) then (nth x k 0 * sc)%Q else nth x k 0%Q.
Proof.
  induction n as [|n IH]; intros j base sc k H; cbn [scaleRow].
  - exists k. split; [reflexivity|]. split; [reflexivity|]. intros x.
    destruct (base + j <=? x) eqn:A; destruct (x <? base + j + 0) eqn:B; try reflexivity.
    apply Nat.leb_le in A. apply Nat.ltb_lt in B. lia.
  - rewrite getQ_ok by lia. cbn [bind]. rewrite putQ_ok by lia. cbn [bind].
    destruct (IH (S j) base sc (setQ k (base + j) (nth (base + j) k 0 * sc)%Q)) as (k' & E & L & N).
    { rewrite setQ_length. lia. }
    exists k'. split; [exact E|]. rewrite setQ_length in L. split; [exact L|].
    intros x. rewrite N. rewrite setQ_nth by lia.
    destruct (x =? base + j) eqn:A.
    + apply Nat.eqb_eq in A. subst x.
      destruct (base + S j <=? base + j) eqn:B; [apply Nat.leb_le in B; lia|]. cbn [andb].
      destruct (base + j <=? base + j) eqn:C; [|apply Nat.leb_gt in C; lia].
      destruct (base + j <? base + j + S n) eqn:D; [reflexivity|apply Nat.ltb_ge in D; lia].
    + apply Nat.eqb_neq in A.
      replace (base + S j <=? x) with (base + j <=? x) by (apply eq_true_iff_eq; rewrite !Nat.leb_le; lia).
      replace (x <? base + S j + n) with (x <? base + j + S n) by (apply eq_true_iff_eq; rewrite !Nat.ltb_lt; lia).
      reflexivity.
Qed.

Ltac bools := repeat match goal with
  | H : (_ <=? _) = true |- _ => apply Nat.leb_le in H
  | H : (_ <=? _) = false |- _ => apply Nat.leb_gt in H
  | H : (_ <? _) = true |- _ => apply Nat.ltb_lt in H
  | H : (_ <? _) = false |- _ => apply Nat.ltb_ge in H end.

Section P.
Variable rt : Q -> Q.
Variable eps : Q.

(** The folded numbers at one address, in terms of the memory before. *)
Definition scl (mem : list Q) (og ov f : nat) : Q := (nth (og + f) mem 0 / rt (nth (ov + f) mem 0 + eps))%Q.

Lemma denorm3_spec isz nb ob og om ov ok mem0 :
  ob + nb <= og -> og + nb <= om -> om + nb <= ov -> ov + nb <= ok -> ok + isz * nb <= length mem0 ->
  forall n s mem, s + n = nb -> length mem = length mem0 ->
  (forall x, nth x mem 0%Q =
     if (ob <=? x) && (x <? ob + s) then (nth x mem0 0 - nth (om + (x - ob)) mem0 0 * scl mem0 og ov (x - ob))%Q
     else if (ok <=? x) && (x <? ok + isz * s) then (nth x mem0 0 * scl mem0 og ov ((x - ok) / isz))%Q
     else nth x mem0 0%Q) ->
  exists mem', denorm3 rt eps n s isz ob og om ov ok mem = Ok mem' /\ length mem' = length mem0 /\
  (forall x, nth x mem' 0%Q =
     if (ob <=? x) && (x <? ob + nb) then (nth x mem0 0 - nth (om + (x - ob)) mem0 0 * scl mem0 og ov (x - ob))%Q
     else if (ok <=? x) && (x <? ok + isz * nb) then (nth x mem0 0 * scl mem0 og ov ((x - ok) / isz))%Q
     else nth x mem0 0%Q).
Proof.
  intros H1 H2 H3 H4 H5. induction n as [|n IH]; intros s mem Hs L N; cbn [denorm3].
  - replace s with nb in N by lia. exists mem. auto.
  - rewrite !getQ_ok by nia. cbn [bind]. rewrite putQ_ok by nia. cbn [bind].
    assert (K : forall y, (y < ob \/ (ob + s <= y /\ y < ok) \/ ok + isz * nb <= y) -> nth y mem 0%Q = nth y mem0 0%Q).
    { intros y Hy. rewrite N. pose proof (Nat.mul_le_mono_l s nb isz ltac:(lia)) as Hm.
      destruct (ob <=? y) eqn:A; destruct (y <? ob + s) eqn:B; cbn [andb];
        destruct (ok <=? y) eqn:C; destruct (y <? ok + isz * s) eqn:D; cbn [andb]; try reflexivity; bools; lia. }
    rewrite (K (og + s)) by lia. rewrite (K (ov + s)) by lia. rewrite (K (ob + s)) by lia. rewrite (K (om + s)) by lia.
    fold (scl mem0 og ov s). set (sc := scl mem0 og ov s).
    set (v := (nth (ob + s) mem0 0 - nth (om + s) mem0 0 * sc)%Q).
    destruct (scaleRow_spec isz 0 (ok + isz * s) sc (setQ mem (ob + s) v)) as (m2 & E & L2 & N2).
    { rewrite setQ_length, L. nia. }
    rewrite E. cbn [bind]. rewrite setQ_length in L2.
    apply IH; [lia|lia|]. intros x. rewrite N2. rewrite setQ_nth by (rewrite L; nia). rewrite Nat.add_0_r.
    destruct (x =? ob + s) eqn:A.
    + apply Nat.eqb_eq in A. subst x.
      destruct (ok + isz * s <=? ob + s) eqn:B; [apply Nat.leb_le in B; nia|]. cbn [andb].
      destruct (ob <=? ob + s) eqn:C; [|apply Nat.leb_gt in C; lia].
      destruct (ob + s <? ob + S s) eqn:D; [|apply Nat.ltb_ge in D; lia]. cbn [andb].
      replace (ob + s - ob) with s by lia. reflexivity.
    + apply Nat.eqb_neq in A.
      replace (x <? ob + S s) with (x <? ob + s) by (apply eq_true_iff_eq; rewrite !Nat.ltb_lt; lia).
      rewrite N.
      destruct ((ok + isz * s <=? x) && (x <? ok + isz * s + isz)) eqn:B.
      * apply andb_true_iff in B. destruct B as [B1 B2]. apply Nat.leb_le in B1. apply Nat.ltb_lt in B2.
        destruct (ob <=? x) eqn:C1; destruct (x <? ob + s) eqn:C2; cbn [andb];
          try (bools; nia);
          (destruct (ok <=? x) eqn:D1; [|apply Nat.leb_gt in D1; nia]);
          (destruct (x <? ok + isz * s) eqn:D2; [apply Nat.ltb_lt in D2; nia|]);
          (destruct (x <? ok + isz * S s) eqn:D3; [|apply Nat.ltb_ge in D3; nia]); cbn [andb];
          (replace ((x - ok) / isz) with s; [reflexivity|]);
          apply Nat.div_unique with (x - ok - isz * s); nia.
      * destruct ((ob <=? x) && (x <? ob + s)); [reflexivity|].
        replace ((ok <=? x) && (x <? ok + isz * S s)) with ((ok <=? x) && (x <? ok + isz * s)); [reflexivity|].
        apply eq_true_iff_eq. rewrite !andb_true_iff, !Nat.leb_le, !Nat.ltb_lt.
        apply andb_false_iff in B. rewrite Nat.leb_gt, Nat.ltb_ge in B. nia.
Qed.

Lemma denorm2_spec isz nb b0 g m v k0 :
  length b0 = nb -> length g = nb -> length m = nb -> length v = nb -> length k0 = isz * nb ->
  forall n i b k, i + n = nb -> length b = nb -> length k = isz * nb ->
  (forall x, nth x b 0%Q = if x <? i then (nth x b0 0 - nth x m 0 * (nth x g 0 / rt (nth x v 0 + eps)))%Q else nth x b0 0%Q) ->
  (forall x, nth x k 0%Q = if x <? isz * i then (nth x k0 0 * (nth (x / isz)%nat g 0 / rt (nth (x / isz)%nat v 0 + eps)))%Q else nth x k0 0%Q) ->
  exists b' k', denorm2 rt eps n i isz b g m v k = Ok (b', k') /\ length b' = nb /\ length k' = isz * nb /\
    (forall x, x < nb -> nth x b' 0%Q = (nth x b0 0 - nth x m 0 * (nth x g 0 / rt (nth x v 0 + eps)))%Q) /\
    (forall x, x < isz * nb -> nth x k' 0%Q = (nth x k0 0 * (nth (x / isz)%nat g 0 / rt (nth (x / isz)%nat v 0 + eps)))%Q).
Proof.
  intros Lb Lg Lm Lv Lk. induction n as [|n IH]; intros i b k Hi L1 L2 Nb Nk; cbn [denorm2].
  - replace i with nb in * by lia. exists b, k. split; [reflexivity|]. split; [exact L1|]. split; [exact L2|]. split.
    + intros x Hx. rewrite Nb. destruct (x <? nb) eqn:A; [reflexivity|apply Nat.ltb_ge in A; lia].
    + intros x Hx. rewrite Nk. destruct (x <? isz * nb) eqn:A; [reflexivity|apply Nat.ltb_ge in A; lia].
  - rewrite !getQ_ok by lia. cbn [bind]. rewrite putQ_ok by lia. cbn [bind].
    set (sc := (nth i g 0 / rt (nth i v 0 + eps))%Q).
    destruct (scaleRow_spec isz 0 (isz * i) sc k) as (k1 & E & L3 & N3); [nia|].
    rewrite E. cbn [bind]. apply IH; [lia|rewrite setQ_length; exact L1|lia| |].
    + intros x. rewrite setQ_nth by lia. rewrite !Nb.
      destruct (x =? i) eqn:A.
      * apply Nat.eqb_eq in A. subst x. destruct (i <? i) eqn:B; [apply Nat.ltb_lt in B; lia|].
        destruct (i <? S i) eqn:C; [reflexivity|apply Nat.ltb_ge in C; lia].
      * apply Nat.eqb_neq in A. replace (x <? S i) with (x <? i) by (apply eq_true_iff_eq; rewrite !Nat.ltb_lt; lia). reflexivity.
    + intros x. rewrite N3, Nk, Nat.add_0_r.
      destruct ((isz * i <=? x) && (x <? isz * i + isz)) eqn:B.
      * apply andb_true_iff in B. destruct B as [B1 B2]. apply Nat.leb_le in B1. apply Nat.ltb_lt in B2.
        destruct (x <? isz * i) eqn:C; [apply Nat.ltb_lt in C; lia|].
        destruct (x <? isz * S i) eqn:D; [|apply Nat.ltb_ge in D; nia].
        replace (x / isz) with i; [reflexivity|]. apply Nat.div_unique with (x - isz * i); nia.
      * replace (x <? isz * S i) with (x <? isz * i); [reflexivity|].
        apply eq_true_iff_eq. rewrite !Nat.ltb_lt. apply andb_false_iff in B. rewrite Nat.leb_gt, Nat.ltb_ge in B. nia.
Qed.
End P.

(** Lists. *)
Lemma nth_sub (l : list Q) a n x : x < n -> nth x (firstn n (skipn a l)) 0%Q = nth (a + x) l 0%Q.
Proof.
  revert n x. induction l as [|y l IH] in a |- *; intros n x H.
  - rewrite skipn_nil, firstn_nil. destruct x, (a + _); reflexivity.
  - destruct a as [|a]; cbn [skipn].
    + destruct n; [lia|]. cbn [firstn Nat.add]. clear IH. revert l n y H.
      induction x as [|x IH]; intros l n y H; cbn; [reflexivity|].
      destruct l as [|z l]; [destruct n; destruct x; reflexivity|]. destruct n; [lia|]. cbn [firstn].
      specialize (IH l n z). cbn in IH. apply IH. lia.
    + rewrite IH by exact H. reflexivity.
Qed.
Lemma length_sub (l : list Q) a n : a + n <= length l -> length (firstn n (skipn a l)) = n.
Proof. intros H. rewrite firstn_length, skipn_length. lia. Qed.
Lemma addL_length a : forall b, length a = length b -> length (addL a b) = length a.
Proof. induction a as [|x a IH]; intros [|y b] H; cbn in *; try lia. rewrite IH; lia. Qed.
Lemma addL_nth a : forall b x, length a = length b -> x < length a -> nth x (addL a b) 0%Q = (nth x a 0 + nth x b 0)%Q.
Proof.
  induction a as [|y a IH]; intros [|z b] x H X; cbn in *; try lia. destruct x; [reflexivity|]. apply IH; lia.
Qed.
Lemma rep_length (l : list Q) k : length (flat_map (fun b => repeat b k) l) = length l * k.
Proof. induction l as [|x l IH]; cbn; [reflexivity|]. rewrite app_length, repeat_length, IH. reflexivity. Qed.
Lemma rep_nth (l : list Q) k x : 0 < k -> nth x (flat_map (fun b => repeat b k) l) 0%Q = nth (x / k) l 0%Q.
Proof.
  intros K. revert x. induction l as [|y l IH]; intros x; cbn.
  - destruct x; destruct (_ / _); reflexivity.
  - destruct (Nat.lt_ge_cases x k) as [H|H].
    + rewrite app_nth1 by (rewrite repeat_length; exact H). rewrite (Nat.div_small x k H).
      clear -H. revert x H. induction k as [|k IH]; intros [|x] H; cbn; try lia; auto. apply IH. lia.
    + rewrite app_nth2 by (rewrite repeat_length; exact H). rewrite repeat_length, IH.
      replace x with ((x - k) + 1 * k) at 2 by lia. rewrite Nat.div_add by lia. rewrite Nat.add_1_r. reflexivity.
Qed.
Lemma sumQ_ext n f g : (forall j, j < n -> (f j == g j)%Q) -> (sumQ n f == total n g)%Q.
Proof. induction n as [|n IH]; intros H; cbn; [reflexivity|]. rewrite IH by (intros; apply H; lia). rewrite (H n) by lia. reflexivity. Qed.
Lemma total_scale n f c : (total n (fun j => f j * c) == total n f * c)%Q.
Proof. induction n as [|n IH]; cbn; [ring|]. rewrite IH. ring. Qed.
Lemma total_ext n f g : (forall j, j < n -> (f j == g j)%Q) -> (total n f == total n g)%Q.
Proof. induction n as [|n IH]; intros H; cbn; [reflexivity|]. rewrite IH by (intros; apply H; lia). rewrite (H n) by lia. reflexivity. Qed.
Lemma convOut_length F P isz N patch k : length (convOut F P isz N patch k) = N * F * P.
Proof. unfold convOut. rewrite map_length, seq_length. reflexivity. Qed.
Lemma convOut_nth F P isz N patch k x : x < N * F * P ->
  nth x (convOut F P isz N patch k) 0%Q
  = sumQ isz (fun j => (nth (isz * ((x / P) mod F) + j)%nat k 0 * patch (x / P / F)%nat (x mod P)%nat j)%Q).
Proof.
  intros H. unfold convOut.
  set (f := fun y => sumQ isz (fun j => (nth (isz * ((y / P) mod F) + j)%nat k 0 * patch (y / P / F)%nat (y mod P)%nat j)%Q)).
  rewrite (nth_indep _ 0%Q (f 0)) by (rewrite map_length, seq_length; exact H).
  rewrite (map_nth f), seq_nth by exact H. reflexivity.
Qed.
Lemma decode F P n f p : f < F -> p < P ->
  ((n * F + f) * P + p) / P = n * F + f /\ ((n * F + f) * P + p) mod P = p /\ (n * F + f) mod F = f /\ (n * F + f) / F = n.
Proof.
  intros H1 H2. split; [symmetry; apply Nat.div_unique with p; lia|].
  split; [symmetry; apply Nat.mod_unique with (n * F + f); lia|].
  split; [symmetry; apply Nat.mod_unique with n; lia|symmetry; apply Nat.div_unique with f; lia].
Qed.

(** The layers of a network. *)
Section N.
Variable rt : Q -> Q.
Variable eps : Q.

(** What is known of a layer after loading, [mem] being the numbers of the file. *)
Definition Good (mem : list Q) (st : nat) (c : cfg) (l : layer) (mem' : list Q) : Prop :=
  let F := filters c in
  lcfg l = c /\ nkern l = F * isize c /\ length (lbias l) = F /\
  match bnorm c with
  | None =>
      (forall f, f < F -> nth f (lbias l) 0%Q = nth (st + f) mem 0%Q) /\
      kern l = st + F /\ st + F + F * isize c <= length mem /\
      (forall y, y < F * isize c -> nth (st + F + y) mem' 0%Q = nth (st + F + y) mem 0%Q)
  | Some _ =>
      (forall f, f < F -> nth f (lbias l) 0%Q
         = (nth (st + f)%nat mem 0 - nth (st + 2 * F + f)%nat mem 0 * scl rt eps mem (st + F) (st + 3 * F) f)%Q) /\
      kern l = st + 4 * F /\ st + 4 * F + F * isize c <= length mem /\
      (forall y, y < F * isize c -> nth (st + 4 * F + y) mem' 0%Q
         = (nth (st + 4 * F + y)%nat mem 0 * scl rt eps mem (st + F) (st + 3 * F) (y / isize c))%Q)
  end.

Lemma view_ok mem lo n : lo + n <= length mem -> view mem lo n = Ok lo.
Proof. intros H. unfold view. apply Nat.leb_le in H. rewrite H. reflexivity. Qed.

Lemma loadConv_spec c mem idx : bnorm c <> Some 0 -> idx + need (filters c) (isize c) (isbn c) <= length mem ->
  exists mem' l, loadConv rt eps c mem idx = Ok (mem', idx + need (filters c) (isize c) (isbn c), l) /\
    length mem' = length mem /\ Good mem idx c l mem' /\
    (forall x, x < idx \/ idx + need (filters c) (isize c) (isbn c) <= x -> nth x mem' 0%Q = nth x mem 0%Q).
Proof.
  intros B H. unfold loadConv, isbn, need in *. destruct (bnorm c) as [[|z]|] eqn:Eb.
  - contradiction B. reflexivity.
  - set (F := filters c) in *. set (z0 := isize c) in *.
    rewrite !view_ok by lia. cbn [bind].
    destruct (denorm3_spec rt eps z0 F idx (idx + F) (idx + F + F) (idx + F + F + F) (idx + F + F + F + F) mem
                ltac:(lia) ltac:(lia) ltac:(lia) ltac:(lia) ltac:(lia) F 0 mem ltac:(lia) eq_refl) as (mem' & E & L & N).
    { intros x. destruct (idx <=? x) eqn:A; destruct (x <? idx + 0) eqn:C; cbn [andb];
        destruct (idx + F + F + F + F <=? x) eqn:D; destruct (x <? idx + F + F + F + F + z0 * 0) eqn:G; cbn [andb];
        try reflexivity; bools; lia. }
    rewrite E. cbn [bind]. eexists mem', _. split.
    { f_equal. f_equal. f_equal. lia. }
    split; [exact L|]. split.
    + unfold Good. rewrite Eb. cbn [lcfg nkern lbias kern]. fold F. fold z0.
      split; [reflexivity|]. split; [reflexivity|]. split; [apply length_sub; lia|]. split; [|split; [lia|split; [lia|]]].
      * intros f Hf. rewrite nth_sub by exact Hf. rewrite N.
        destruct (idx <=? idx + f) eqn:A; [|bools; lia]. destruct (idx + f <? idx + F) eqn:C; [|bools; lia]. cbn [andb].
        replace (idx + f - idx) with f by lia.
        replace (idx + 2 * F) with (idx + F + F) by lia. replace (idx + 3 * F) with (idx + F + F + F) by lia. reflexivity.
      * intros y Hy. replace (idx + 4 * F) with (idx + F + F + F + F) by lia. replace (idx + 3 * F) with (idx + F + F + F) by lia.
        rewrite N.
        destruct (idx + F + F + F + F + y <? idx + F) eqn:A; [bools; lia|]. rewrite andb_false_r.
        destruct (idx + F + F + F + F <=? idx + F + F + F + F + y) eqn:C; [|bools; lia].
        destruct (idx + F + F + F + F + y <? idx + F + F + F + F + z0 * F) eqn:D; [|bools; lia]. cbn [andb].
        replace (idx + F + F + F + F + y - (idx + F + F + F + F)) with y by lia. reflexivity.
    + intros x Hx. rewrite N.
      destruct (idx <=? x) eqn:A; destruct (x <? idx + F) eqn:C; cbn [andb];
        destruct (idx + F + F + F + F <=? x) eqn:D; destruct (x <? idx + F + F + F + F + z0 * F) eqn:G; cbn [andb];
        try reflexivity; bools; lia.
  - set (F := filters c) in *. set (z0 := isize c) in *.
    rewrite !view_ok by lia. cbn [bind]. eexists mem, _. split.
    { f_equal. f_equal. f_equal. lia. }
    split; [reflexivity|]. split; [|reflexivity].
    unfold Good. rewrite Eb. cbn [lcfg nkern lbias kern]. fold F. fold z0.
    split; [reflexivity|]. split; [reflexivity|]. split; [apply length_sub; lia|]. split; [|split; [reflexivity|split; [lia|reflexivity]]].
    intros f Hf. apply nth_sub. exact Hf.
Qed.

Lemma Good_mem m1 m2 st c l mem' : length m1 = length m2 -> (forall x, st <= x -> nth x m1 0%Q = nth x m2 0%Q) ->
  Good m1 st c l mem' -> Good m2 st c l mem'.
Proof.
  intros L H. unfold Good, scl. intros (A & B & C & D). split; [exact A|]. split; [exact B|]. split; [exact C|]. rewrite <- L.
  destruct (bnorm c) as [z|].
  - destruct D as (D1 & D2 & D3 & D4). split; [|split; [exact D2|split; [exact D3|]]].
    + intros f Hf. rewrite D1 by exact Hf. rewrite !H by lia. reflexivity.
    + intros y Hy. rewrite D4 by exact Hy. rewrite !H by lia. reflexivity.
  - destruct D as (D1 & D2 & D3 & D4). split; [|split; [exact D2|split; [exact D3|]]].
    + intros f Hf. rewrite D1 by exact Hf. apply H. lia.
    + intros y Hy. rewrite D4 by exact Hy. apply H. lia.
Qed.
Lemma Good_after m st c l m1 m2 :
  (forall x, x < st + need (filters c) (isize c) (isbn c) -> nth x m2 0%Q = nth x m1 0%Q) ->
  Good m st c l m1 -> Good m st c l m2.
Proof.
  intros H. unfold Good, isbn, need in *. intros (A & B & C & D). split; [exact A|]. split; [exact B|]. split; [exact C|].
  destruct (bnorm c) as [z|]; destruct D as (D1 & D2 & D3 & D4); (split; [exact D1|split; [exact D2|split; [exact D3|]]]);
    intros y Hy; rewrite <- D4 by exact Hy; apply H; lia.
Qed.

Lemma loadAll_spec cs : Forall (fun c => bnorm c <> Some 0) cs -> forall mem idx, idx + needs cs <= length mem ->
  exists mem' ls, loadAll rt eps cs mem idx = Ok (mem', ls) /\ length mem' = length mem /\ length ls = length cs /\
    (forall x, x < idx -> nth x mem' 0%Q = nth x mem 0%Q) /\
    forall a c b, cs = a ++ c :: b -> exists l, nth_error ls (length a) = Some l /\ Good mem (idx + needs a) c l mem'.
Proof.
  induction 1 as [|c cs B FB IH]; intros mem idx H; cbn [loadAll].
  - exists mem, []. split; [reflexivity|]. split; [reflexivity|]. split; [reflexivity|]. split; [reflexivity|].
    intros a c b E. destruct a; discriminate E.
  - unfold needs in H. cbn [map list_sum fold_right] in H. fold (needs cs) in H.
    change (fold_right Nat.add 0 (map _ cs)) with (needs cs) in H.
    destruct (loadConv_spec c mem idx B ltac:(lia)) as (m1 & l & E & L1 & G & N1). rewrite E. cbn [bind].
    set (nd := need (filters c) (isize c) (isbn c)) in *.
    destruct (IH m1 (idx + nd) ltac:(lia)) as (m2 & ls & E2 & L2 & L3 & N2 & G2). rewrite E2. cbn [bind].
    exists m2, (l :: ls). split; [reflexivity|]. split; [lia|]. split; [cbn; lia|]. split.
    { intros x Hx. rewrite N2 by lia. apply N1. lia. }
    intros [|c0 a] d b Eq.
    + injection Eq as <- <-. exists l. split; [reflexivity|]. unfold needs. cbn [map list_sum fold_right]. rewrite Nat.add_0_r.
      apply (Good_after mem idx c l m1); [|exact G]. intros x Hx. apply N2. exact Hx.
    + injection Eq as <- Eq. destruct (G2 a d b Eq) as (l' & E' & G'). exists l'. split; [exact E'|].
      unfold needs. cbn [map list_sum fold_right]. change (fold_right Nat.add 0 (map _ a)) with (needs a). fold nd.
      rewrite Nat.add_assoc. apply (Good_mem m1); [exact L1| |exact G'].
      intros x Hx. apply N1. right. lia.
Qed.

(** Too few numbers, also with the spare capacity: a panic. *)
Lemma loadConv_short c mem idx : bnorm c <> Some 0 -> length mem < idx + need (filters c) (isize c) (isbn c) ->
  loadConv rt eps c mem idx = Panic.
Proof.
  intros B H. unfold loadConv, isbn, need in *. destruct (bnorm c) as [[|z]|] eqn:Eb; [contradiction B; reflexivity| |].
  - unfold view.
    destruct (idx + filters c <=? length mem); [|reflexivity]. cbn [bind].
    destruct (_ <=? length mem); [|reflexivity]. cbn [bind].
    destruct (_ <=? length mem); [|reflexivity]. cbn [bind].
    destruct (_ <=? length mem); [|reflexivity]. cbn [bind].
    destruct (_ <=? length mem) eqn:A; [bools; lia|reflexivity].
  - unfold view. destruct (idx + filters c <=? length mem); [|reflexivity]. cbn [bind].
    destruct (_ <=? length mem) eqn:A; [bools; lia|reflexivity].
Qed.
Lemma loadAll_short cs : Forall (fun c => bnorm c <> Some 0) cs -> forall mem idx,
  length mem < idx + needs cs -> cs = [] \/ loadAll rt eps cs mem idx = Panic.
Proof.
  induction 1 as [|c cs B FB IH]; intros mem idx H; [left; reflexivity|right]. cbn [loadAll].
  unfold needs in H. cbn [map list_sum fold_right] in H. change (fold_right Nat.add 0 (map _ cs)) with (needs cs) in H.
  destruct (Nat.le_gt_cases (idx + need (filters c) (isize c) (isbn c)) (length mem)) as [A|A].
  - destruct (loadConv_spec c mem idx B A) as (m1 & l & E & L1 & _). rewrite E. cbn [bind].
    destruct (IH m1 (idx + need (filters c) (isize c) (isbn c)) ltac:(lia)) as [->|E2]; [cbn in H; lia|].
    rewrite E2. reflexivity.
  - rewrite (loadConv_short c mem idx B A). reflexivity.
Qed.
End N.

(** The value of a layer. *)
Lemma iters N F P : 0 < F -> N * F * P / F = N * P.
Proof. intros H. replace (N * F * P) with (N * P * F) by lia. apply Nat.div_mul. lia. Qed.

Lemma idx_lt N F P n f p : n < N -> f < F -> p < P -> (n * F + f) * P + p < N * F * P.
Proof.
  intros Hn Hf Hp. assert (A : S n * F <= N * F) by (apply Nat.mul_le_mono_r; lia).
  assert (B : S (n * F + f) * P <= N * F * P) by (apply Nat.mul_le_mono_r; lia). lia.
Qed.
Lemma bias_index N F P n f p : n < N -> f < F -> p < P -> ((n * F + f) * P + p) / (N * P) < F.
Proof. intros Hn Hf Hp. apply Nat.div_lt_upper_bound; [nia|]. pose proof (idx_lt N F P n f p Hn Hf Hp). lia. Qed.
Lemma layer_out F P isz N patch k b : 0 < F -> length b = F ->
  length (biasData (N * F * P) b) = N * F * P /\
  length (addL (convOut F P isz N patch k) (biasData (N * F * P) b)) = N * F * P /\
  forall n f p, n < N -> f < F -> p < P ->
    nth ((n * F + f) * P + p) (addL (convOut F P isz N patch k) (biasData (N * F * P) b)) 0%Q
    = (nth ((n * F + f) * P + p) (convOut F P isz N patch k) 0 + nth (((n * F + f) * P + p) / (N * P))%nat b 0)%Q.
Proof.
  intros HF Lb. unfold biasData. rewrite Lb, iters by exact HF.
  assert (L : length (flat_map (fun b0 => repeat b0 (N * P)) b) = N * F * P) by (rewrite rep_length, Lb; nia).
  split; [exact L|]. split; [rewrite addL_length; rewrite convOut_length; auto|].
  intros n f p Hn Hf Hp. pose proof (idx_lt N F P n f p Hn Hf Hp).
  rewrite addL_nth by (rewrite convOut_length; try rewrite L; lia).
  rewrite rep_nth by nia. reflexivity.
Qed.
Lemma conv_at F P isz N patch k n f p : n < N -> f < F -> p < P ->
  (nth ((n * F + f) * P + p) (convOut F P isz N patch k) 0 == total isz (fun j => nth (isz * f + j)%nat k 0 * patch n p j))%Q.
Proof.
  intros Hn Hf Hp. rewrite convOut_nth by (apply idx_lt; assumption). destruct (decode F P n f p Hf Hp) as (-> & -> & -> & ->).
  apply sumQ_ext. intros j _. reflexivity.
Qed.
