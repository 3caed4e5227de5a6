(** Proofs about ParModel.v. *)
From Coq Require Import List Arith Bool Lia.
From Verif Require Import ParModel ParSpec.
Import ListNotations.
Local Open Scope nat_scope.

Section P.
Variable V : Type.
Implicit Types (p : prog V) (m : mem V).

Lemma upd_ext m m' l v : (forall x, m x = m' x) -> forall x, upd m l v x = upd m' l v x.
Proof. intros H x. unfold upd. destruct (_ && _); auto. Qed.

Lemma upd_at m l v x : upd m l v x = if (fst x =? fst l) && (snd x =? snd l) then v else m x.
Proof. reflexivity. Qed.

Lemma same_loc (x l : loc) : (fst x =? fst l) && (snd x =? snd l) = true <-> x = l.
Proof.
  destruct x as [a b], l as [c d]. cbn. rewrite andb_true_iff, !Nat.eqb_eq. split; [intros [-> ->]; reflexivity|intro E; injection E; auto].
Qed.

Lemma run_ext p : forall m m', (forall x, m x = m' x) -> forall x, run p m x = run p m' x.
Proof.
  induction p as [|l k IH|l v p IH]; intros m m' H x; cbn; auto.
  - rewrite H. apply IH. exact H.
  - apply IH. apply upd_ext. exact H.
Qed.

Lemma run_keeps rd wr p : touches rd wr p -> forall m l, ~ wr l -> run p m l = m l.
Proof.
  induction 1 as [|l k L _ IH|l v p W _ IH]; intros m x N; cbn; auto.
  rewrite IH by exact N. rewrite upd_at. destruct (_ && _) eqn:E; [|reflexivity].
  apply same_loc in E. subst. contradiction.
Qed.

Lemma run_upd rd wr p : touches rd wr p -> forall m l v, ~ rd l -> ~ wr l ->
  forall x, run p (upd m l v) x = upd (run p m) l v x.
Proof.
  induction 1 as [|l k L _ IH|l w p W _ IH]; intros m y v N1 N2 x; cbn; auto.
  - replace (upd m y v l) with (m l); [apply IH; assumption|].
    rewrite upd_at. destruct (_ && _) eqn:E; [|reflexivity]. apply same_loc in E. subst. tauto.
  - rewrite <- IH by assumption. apply run_ext. intro z. rewrite !upd_at.
    destruct ((fst z =? fst l) && (snd z =? snd l)) eqn:E1, ((fst z =? fst y) && (snd z =? snd y)) eqn:E2; auto.
    apply same_loc in E1, E2. subst. contradiction.
Qed.

Definition runList (ps : list (nat * prog V)) m : mem V := fold_left (fun m q => run (snd q) m) ps m.

Lemma runList_app a b m : runList (a ++ b) m = runList b (runList a m).
Proof. apply fold_left_app. Qed.

Lemma runList_ext ps : forall m m', (forall x, m x = m' x) -> forall x, runList ps m x = runList ps m' x.
Proof.
  induction ps as [|q ps IH]; intros m m' H x; cbn; [apply H|]. apply IH. apply run_ext. exact H.
Qed.

Section Cb.
Variables (cb : nat -> prog V) (from to : nat) (rd wr : nat -> loc -> Prop).
Hypothesis T : forall i, from <= i < to -> touches (rd i) (wr i) (cb i).
Hypothesis AP : apart rd wr from to.
Variable m0 : mem V.

Definition waiting (i : nat) : list (nat * prog V) := map (fun j => (j, cb j)) (seq i (to - i)).

Lemma oneByOne_runList m : oneByOne cb from to m = runList (waiting from) m.
Proof.
  unfold oneByOne, waiting, runList. generalize (seq from (to - from)). intro l. revert m.
  induction l as [|i l IH]; intro m; cbn; [reflexivity|apply IH].
Qed.

Record Inv (s : state V) : Prop := {
  iN : from <= next s;
  iC : counter s = length (running s);
  iD : NoDup (map fst (running s));
  iT : forall j p, In (j, p) (running s) -> from <= j < to /\ j < next s /\ touches (rd j) (wr j) p;
  iM : forall l, runList (running s ++ waiting (next s)) (memory s) l = oneByOne cb from to m0 l }.

Lemma keeps_list ps m l : (forall j p, In (j, p) ps -> touches (rd j) (wr j) p) ->
  (forall j p, In (j, p) ps -> ~ wr j l) -> runList ps m l = m l.
Proof.
  revert m. induction ps as [|[j p] ps IH]; intros m H1 H2; cbn; [reflexivity|].
  rewrite IH; [|intros; apply H1; right; assumption|intros j' p' X; apply (H2 j' p'); right; assumption].
  apply (run_keeps (rd j) (wr j)); [apply H1; left; reflexivity|apply (H2 j p); left; reflexivity].
Qed.

Lemma upd_list ps m l v : (forall j p, In (j, p) ps -> touches (rd j) (wr j) p) ->
  (forall j p, In (j, p) ps -> ~ rd j l /\ ~ wr j l) -> forall x, runList ps (upd m l v) x = upd (runList ps m) l v x.
Proof.
  revert m. induction ps as [|[j p] ps IH]; intros m H1 H2 x; cbn; [reflexivity|].
  destruct (H2 j p (or_introl eq_refl)) as [N1 N2].
  rewrite <- IH; [|intros; apply H1; right; assumption|intros j' p' X; apply (H2 j' p'); right; assumption].
  apply runList_ext. intro y. apply (run_upd (rd j) (wr j)); auto. apply H1. left. reflexivity.
Qed.

Lemma others (a b : list (nat * prog V)) (j : nat) (p : prog V) : NoDup (map fst (a ++ (j, p) :: b)) -> forall j' p', In (j', p') a -> j' <> j.
Proof.
  rewrite map_app. cbn. intros N j' p' X E. apply NoDup_remove_2 in N. apply N. apply in_or_app. left. subst.
  change j with (fst (j, p')). apply in_map. exact X.
Qed.

Lemma step_inv s s' : Inv s -> step to cb s s' -> Inv s'.
Proof.
  intros [N C D F M] St. destruct St as [i ps n m L|i a j l k b n m|i a j l v p b n m|i a j b n m]; cbn [next running counter memory] in *.
  - constructor; cbn [next running counter memory].
    + lia.
    + rewrite app_length. cbn. lia.
    + rewrite map_app. cbn. assert (NI : ~ In i (map fst ps)).
      { intro X. apply in_map_iff in X. destruct X as ([j p] & E & X). cbn in E. subst j. destruct (F i p X) as (_ & G & _). lia. }
      clear -D NI. induction (map fst ps) as [|x l IH]; cbn; [constructor; [intros []|constructor]|].
      inversion D; subst. constructor; [|apply IH; [assumption|intro; apply NI; right; assumption]].
      intro X. apply in_app_or in X. destruct X as [X|[X|[]]]; [contradiction|]. apply NI. left. symmetry. exact X.
    + intros j p X. apply in_app_or in X. destruct X as [X|[X|[]]].
      * destruct (F j p X) as (G1 & G2 & G3). split; [exact G1|]. split; [lia|exact G3].
      * injection X as <- <-. split; [lia|]. split; [lia|]. apply T. lia.
    + intro l. rewrite <- M. unfold waiting. replace (to - i) with (S (to - S i)) by lia. cbn [seq map]. rewrite <- app_assoc. reflexivity.
  - destruct (F j (Rd l k)) as (G1 & G2 & G3); [apply in_or_app; right; left; reflexivity|].
    inversion G3 as [|l' k' LW KT|]; subst.
    constructor; cbn [next running counter memory].
    + exact N.
    + rewrite !app_length. reflexivity.
    + rewrite map_app in *. exact D.
    + intros j' p' X. apply in_app_or in X. destruct X as [X|[X|X]].
      * apply F. apply in_or_app. left. exact X.
      * injection X as <- <-. split; [exact G1|]. split; [exact G2|]. apply KT.
      * apply F. apply in_or_app. right. right. exact X.
    + intro x. rewrite <- M, <- !app_assoc, !runList_app. cbn [app runList fold_left snd run].
      replace (runList a m l) with (m l); [reflexivity|]. symmetry. apply keeps_list.
      * intros j' p' X. apply F. apply in_or_app. left. exact X.
      * intros j' p' X W. assert (J := others _ _ _ _ D j' p' X).
        destruct (F j' p') as (H1 & _ & _); [apply in_or_app; left; exact X|].
        destruct (AP j' j l H1 G1 J W). tauto.
  - destruct (F j (Wr l v p)) as (G1 & G2 & G3); [apply in_or_app; right; left; reflexivity|].
    inversion G3 as [| |l' v' p' W PT]; subst.
    constructor; cbn [next running counter memory].
    + exact N.
    + rewrite !app_length. reflexivity.
    + rewrite map_app in *. exact D.
    + intros j' p' X. apply in_app_or in X. destruct X as [X|[X|X]].
      * apply F. apply in_or_app. left. exact X.
      * injection X as <- <-. split; [exact G1|]. split; [exact G2|exact PT].
      * apply F. apply in_or_app. right. right. exact X.
    + intro x. rewrite <- M, <- !app_assoc, !runList_app. cbn [app runList fold_left snd run].
      apply runList_ext. apply (runList_ext b). apply run_ext. apply upd_list.
      * intros j' p' X. apply F. apply in_or_app. left. exact X.
      * intros j' p' X. assert (J := others _ _ _ _ D j' p' X).
        destruct (F j' p') as (H1 & _ & _); [apply in_or_app; left; exact X|].
        apply (AP j j' l G1 H1 (not_eq_sym J) W).
  - constructor; cbn [next running counter memory].
    + exact N.
    + rewrite C, !app_length. cbn. lia.
    + rewrite map_app in *. cbn in D. apply NoDup_remove_1 in D. exact D.
    + intros j' p' X. apply F. apply in_app_or in X. apply in_or_app. destruct X; [left|right; right]; assumption.
    + intro x. rewrite <- M, <- !app_assoc, !runList_app. reflexivity.
Qed.

Lemma start_inv : Inv (start from m0).
Proof.
  constructor; cbn; [lia|reflexivity|constructor|intros j p []|]. intro l. rewrite oneByOne_runList. reflexivity.
Qed.

Lemma steps_inv s : steps to cb (start from m0) s -> Inv s.
Proof.
  intro H. remember (start from m0) as s0 eqn:E. induction H; subst; [apply start_inv|]. eapply step_inv; eauto.
Qed.
End Cb.

Lemma steps_trans to (cb : nat -> prog V) s t u : steps to cb s t -> steps to cb t u -> steps to cb s u.
Proof. intros H1 H2. induction H2; [exact H1|]. eapply steps_step; [apply IHsteps; exact H1|exact H]. Qed.

Lemma finish_one to (cb : nat -> prog V) j p : forall i b n m, exists m', steps to cb (St i ((j, p) :: b) n m) (St i b (n - 1) m').
Proof.
  induction p as [|l k IH|l v p IH]; intros i b n m.
  - exists m. eapply steps_step; [apply steps_refl|]. apply (SDone V to cb i [] j b n m).
  - destruct (IH (m l) i b n m) as (m' & H). exists m'. eapply steps_trans; [|exact H].
    eapply steps_step; [apply steps_refl|]. apply (SLoad V to cb i [] j l k b n m).
  - destruct (IH i b n (upd m l v)) as (m' & H). exists m'. eapply steps_trans; [|exact H].
    eapply steps_step; [apply steps_refl|]. apply (SStore V to cb i [] j l v p b n m).
Qed.

Lemma spawn_all to (cb : nat -> prog V) : forall d i ps n m, d = to - i -> exists i' ps' n', to <= i' /\
  n' = n + (length ps' - length ps) /\ length ps <= length ps' /\ steps to cb (St i ps n m) (St i' ps' n' m).
Proof.
  induction d as [|d IH]; intros i ps n m E.
  - exists i, ps, n. repeat split; [lia|lia|lia|apply steps_refl].
  - destruct (IH (S i) (ps ++ [(i, cb i)]) (S n) m) as (i' & ps' & n' & H1 & H2 & H3 & H4); [lia|].
    rewrite app_length in *. cbn in *. exists i', ps', n'. repeat split; [exact H1|lia|lia|].
    eapply steps_trans; [|exact H4]. eapply steps_step; [apply steps_refl|]. constructor. lia.
Qed.

Lemma finish_all to (cb : nat -> prog V) : forall ps i n m, n = length ps -> exists m', steps to cb (St i ps n m) (St i [] 0 m').
Proof.
  induction ps as [|[j p] ps IH]; intros i n m E.
  - subst. exists m. apply steps_refl.
  - destruct (finish_one to cb j p i ps n m) as (m1 & H1). destruct (IH i (n - 1) m1) as (m2 & H2); [cbn in E; lia|].
    exists m2. eapply steps_trans; eauto.
Qed.

Lemma like_a_loop (cb : nat -> prog V) n rd wr :
  (forall i, i < n -> touches (rd i) (wr i) (cb i)) -> apart rd wr 0 n -> likeALoop cb n.
Proof.
  intros T AP m s H.
  assert (IV : Inv cb 0 n rd wr m s) by (apply steps_inv; auto; intros i Hi; apply T; lia).
  destruct IV as [N C D F M]. destruct s as [i ps c mm]. cbn [next running counter memory] in *. split.
  - destruct (spawn_all n cb _ i ps c mm eq_refl) as (i' & ps' & c' & H1 & H2 & H3 & H4).
    destruct (finish_all n cb ps' i' c' mm) as (m' & H5); [lia|].
    exists (St i' [] 0 m'). split; [eapply steps_trans; eauto|]. split; [exact H1|reflexivity].
  - intros [R1 R2]. cbn in R1, R2. destruct ps; [|cbn in C; lia]. split; [reflexivity|].
    intro l. rewrite <- M. unfold waiting. replace (n - i) with 0 by lia. reflexivity.
Qed.

(** ** Which cells the loops use *)
Lemma touches_loop (rd wr : loc -> Prop) A (body : nat -> A -> (A -> prog V) -> prog V) : forall n i a k,
  (forall j a k, i <= j < i + n -> (forall a', touches rd wr (k a')) -> touches rd wr (body j a k)) ->
  (forall a, touches rd wr (k a)) -> touches rd wr (loopP n i body a k).
Proof.
  induction n as [|n IH]; intros i a k H K; cbn; [apply K|]. apply H; [lia|]. intro a'. apply IH; [|exact K].
  intros j a0 k0 Hj. apply H. lia.
Qed.

Lemma touches_section (rd wr : loc -> Prop) s base n k :
  (forall j, j < n -> rd (s, base + j)) -> (forall l, touches rd wr (k l)) -> touches rd wr (loadSection (V:=V) s base n k).
Proof.
  intros H K. apply touches_loop; [|exact K]. intros j a k0 Hj K0. constructor; [left; apply H; lia|]. intro v. apply K0.
Qed.

(** The place of a channel of a sample, and of a row. *)
Lemma place_inj C D s c d s' c' d' : c < C -> c' < C -> d < D -> d' < D ->
  s * C * D + c * D + d = s' * C * D + c' * D + d' -> c = c'.
Proof.
  intros H1 H2 H3 H4 E.
  assert (X : (s * C + c) * D + d = (s' * C + c') * D + d') by nia.
  assert (Y : s * C + c = s' * C + c').
  { transitivity (((s * C + c) * D + d) / D); [apply (Nat.div_unique _ D _ d H3); lia|].
    rewrite X. symmetry. apply (Nat.div_unique _ D _ d' H4). lia. }
  transitivity ((s * C + c) mod C); [apply (Nat.mod_unique _ C s c H1); lia|].
  rewrite Y. symmetry. apply (Nat.mod_unique _ C s' c' H2). lia.
Qed.

Lemma row_inj D i e i' e' : e < D -> e' < D -> i * D + e = i' * D + e' -> i = i'.
Proof.
  intros H1 H2 E. transitivity ((i * D + e) / D); [apply (Nat.div_unique _ D _ e H1); lia|].
  rewrite E. symmetry. apply (Nat.div_unique _ D _ e' H2). lia.
Qed.
End P.
