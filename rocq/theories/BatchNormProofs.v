(** Proofs for batch normalisation. *)
From Coq Require Import Arith Reals List Bool Lia Lra.
From Verif Require Import Sums LoopModel LoopProofs ConvProofs AvgProofs DropoutSpec BatchNormModel BatchNormSpec.
Import ListNotations.
Local Open Scope R_scope.

(** ** Loops over a channel *)
Section Channel.
Variables B C D : nat.
Local Notation N := (B * C * D)%nat.
Local Notation ix := (at3 C D).

Lemma overChannel_eq {S} c (body : nat -> S -> option S) st :
  overChannel B C D c body st = loop B (fun s => loop D (fun d => body (ix s c d))) st.
Proof.
  unfold overChannel. destruct (Nat.eqb_spec D 1) as [E|E].
  - rewrite E. unfold loop. apply foldM_ext. intros s t Hs. cbn [seq foldM]. unfold at3.
    rewrite Nat.mul_1_r, Nat.add_0_r. destruct (body (s * C + c)%nat t); reflexivity.
  - unfold loop. apply foldM_ext. intros s t Hs. apply foldM_ext. intros d t' Hd. unfold at3.
    replace ((s * C + c) * D + d)%nat with (s * C * D + c * D + d)%nat by ring. reflexivity.
Qed.

Lemma chanTotal_ok c (f : nat -> option R) (v : nat -> R) : (c < C)%nat ->
  (forall i, (i < N)%nat -> f i = Some (v i)) ->
  chanTotal B C D c f = Some (sum B (fun s => sum D (fun d => v (ix s c d)))).
Proof.
  intros Hc H. unfold chanTotal. rewrite overChannel_eq.
  assert (G := loop_sum2 (A := R) B D (fun s d => f (ix s c d)) (fun s d => v (ix s c d)) 0).
  cbn [radd CRing_R] in G. rewrite G.
  - f_equal. ring.
  - intros i j Hi Hj. apply H. apply at3_lt; assumption.
Qed.

Lemma writes_channel (t : nat -> R) c body : (c < C)%nat ->
  (forall i out, (i < N)%nat -> row3 C D i = c -> body i out = aset out i (t i)) ->
  writes N t (overChannel B C D c body) (fun j => exists s, (s < B)%nat /\ exists d, (d < D)%nat /\ j = ix s c d).
Proof.
  intros Hc H. eapply writes_ext; [intro o; symmetry; apply overChannel_eq|intros j Hj; exact Hj|].
  apply (writes_loop N t B _ (fun s j => exists d, (d < D)%nat /\ j = ix s c d)). intros s Hs.
  apply (writes_loop N t D _ (fun d j => j = ix s c d)). intros d Hd.
  assert (L := at3_lt B C D s c d Hs Hc Hd). destruct (at3_div C D s c d Hc Hd) as [_ [E _]].
  eapply writes_ext; [intro o; symmetry; apply H; [exact L|exact E]|intros j Hj; exact Hj|].
  apply writes_aset; [exact L|reflexivity].
Qed.
End Channel.

(** ** Cells rewritten in place *)
Section Rewrites.
Variable n : nat.
Variable init : list R.
Variable t : nat -> R.
Definition rewrites (body : list R -> option (list R)) (P : nat -> Prop) : Prop :=
  forall out, length out = n -> (forall j, P j -> nth_error out j = nth_error init j) ->
  exists out', body out = Some out' /\ length out' = n /\
    (forall j, P j -> nth_error out' j = Some (t j)) /\ (forall j, ~ P j -> nth_error out' j = nth_error out j).

Lemma rewrites_loop m (body : nat -> list R -> option (list R)) (P : nat -> nat -> Prop) :
  (forall i, (i < m)%nat -> rewrites (body i) (P i)) ->
  (forall i i' j, (i < m)%nat -> (i' < m)%nat -> P i j -> P i' j -> i = i') ->
  rewrites (loop m body) (fun j => exists i, (i < m)%nat /\ P i j).
Proof.
  intros H Dj out Lo E. unfold loop.
  assert (G : forall k, (k <= m)%nat -> exists out', foldM body (seq 0 k) out = Some out' /\ length out' = n /\
    (forall i j, (i < k)%nat -> P i j -> nth_error out' j = Some (t j)) /\
    (forall j, (forall i, (i < k)%nat -> ~ P i j) -> nth_error out' j = nth_error out j)).
  { induction k as [|k IH]; intro Hk.
    - exists out. cbn. repeat split; auto. intros; lia.
    - destruct (IH ltac:(lia)) as (o & Eo & L & A & Bn).
      destruct (H k ltac:(lia) o L) as (o' & E' & L' & A' & B').
      { intros j Pj. rewrite Bn; [apply E; exists k; split; [lia|exact Pj]|].
        intros i Hi Pi. assert (i = k) by (apply (Dj i k j); auto; lia). lia. }
      exists o'. rewrite seq_S, foldM_app, Eo. cbn [foldM Nat.add]. rewrite E'. repeat split; auto.
      + intros i j Hi Pi. destruct (Nat.eq_dec i k) as [->|Ne]; [apply A', Pi|].
        rewrite B'; [apply (A i); [lia|exact Pi]|]. intro Pk. assert (i = k) by (apply (Dj i k j); auto; lia). lia.
      + intros j Hj. rewrite B' by (apply Hj; lia). apply Bn. intros i Hi. apply Hj. lia. }
  destruct (G m ltac:(lia)) as (o & Eo & L & A & Bn). exists o. repeat split; auto.
  - intros j (i & Hi & Pi). apply (A i j Hi Pi).
  - intros j Hj. apply Bn. intros i Hi Pi. apply Hj. eauto.
Qed.

Lemma rewrites_cell i body (f : R -> R) : (i < n)%nat -> length init = n -> t i = f (nth i init 0) ->
  (forall out o, aget out i = Some o -> body out = aset out i (f o)) ->
  rewrites body (fun j => j = i).
Proof.
  intros Hi Li Ti H out Lo E. specialize (E i eq_refl).
  rewrite (nth_error_nth' init 0) in E by lia.
  destruct (aset_some out i (t i) ltac:(lia)) as (o & Eo & L & V & Nn).
  exists o. rewrite (H out (nth i init 0) E), <- Ti, Eo. repeat split; auto; [congruence|].
  intros j ->. exact V.
Qed.

Lemma rewrites_all body P : rewrites body P -> length init = n -> (forall j, (j < n)%nat -> P j) ->
  body init = Some (map t (seq 0 n)).
Proof.
  intros W L Cov. destruct (W init L ltac:(auto)) as (o & -> & Lo & A & _). f_equal.
  apply nth_ext with (d := t 0%nat) (d' := t 0%nat); [rewrite map_length, seq_length; exact Lo|].
  intros j Hj. rewrite Lo in Hj. rewrite (map_nth t), seq_nth by exact Hj.
  apply nth_error_nth, A, Cov, Hj.
Qed.
End Rewrites.

Definition ch0 := {| saveMean := 0; saveVar := 0; runMean := 0; runVar := 0 |}.

Lemma at3_inj H W k i j k' i' j' : (i < H)%nat -> (j < W)%nat -> (i' < H)%nat -> (j' < W)%nat ->
  at3 H W k i j = at3 H W k' i' j' -> k = k' /\ i = i' /\ j = j'.
Proof.
  intros Hi Hj Hi' Hj' E. destruct (at3_div H W k i j Hi Hj) as (A1 & A2 & A3).
  destruct (at3_div H W k' i' j' Hi' Hj') as (B1 & B2 & B3). rewrite E in A1, A2, A3. repeat split; congruence.
Qed.

Lemma scaleAll_ok op B C D chs init : length chs = C -> length init = (B * C * D)%nat ->
  scaleAll op B C D chs init =
  Some (map (fun j => nth j init 0 * alphaOf op (D * B) (nth (row3 C D j) chs ch0) + betaOf op (D * B) (nth (row3 C D j) chs ch0))
            (seq 0 (B * C * D))).
Proof.
  intros Lc Li.
  set (t := fun j => nth j init 0 * alphaOf op (D * B) (nth (row3 C D j) chs ch0) + betaOf op (D * B) (nth (row3 C D j) chs ch0)).
  assert (Cell : forall s c d i, (s < B)%nat -> (c < C)%nat -> (d < D)%nat -> i = at3 C D s c d ->
    rewrites (B * C * D) init t (scaleCell op (D * B) chs c i) (fun j => j = i)).
  { intros s c d i Hs Hc Hd Ei. assert (L := at3_lt B C D s c d Hs Hc Hd). rewrite <- Ei in L.
    destruct (at3_div C D s c d Hc Hd) as [_ [E _]]. rewrite <- Ei in E.
    apply (rewrites_cell _ _ _ i _ (fun o => o * alphaOf op (D * B) (nth c chs ch0) + betaOf op (D * B) (nth c chs ch0))).
    - exact L.
    - exact Li.
    - unfold t. rewrite E. reflexivity.
    - intros out o Eo. unfold scaleCell. rewrite Eo. unfold aget. rewrite (nth_error_nth' chs ch0) by lia. reflexivity. }
  unfold scaleAll. destruct (Nat.eqb_spec D 1) as [E1|E1].
  - refine (rewrites_all _ _ _ _ (fun j => exists s, (s < B)%nat /\ exists c, (c < C)%nat /\ j = (s * C + c)%nat) _ Li _).
    + refine (rewrites_loop _ _ _ _ _ (fun s j => exists c, (c < C)%nat /\ j = (s * C + c)%nat) _ _).
      * intros s Hs. refine (rewrites_loop _ _ _ _ _ (fun c j => j = (s * C + c)%nat) _ _).
        -- intros c Hc. apply (Cell s c 0%nat); try lia. unfold at3. rewrite E1. lia.
        -- intros i i' j _ _ -> E. lia.
      * intros i i' j _ _ (c & Hc & ->) (c' & Hc' & E). assert (i < i' \/ i' < i \/ i = i')%nat as [|[|]] by lia; nia.
    + intros j Hj. rewrite E1, Nat.mul_1_r in Hj. assert (C <> 0)%nat by nia.
      exists (j / C)%nat. split; [apply Nat.div_lt_upper_bound; lia|].
      exists (j mod C)%nat. split; [apply Nat.mod_upper_bound; assumption|]. rewrite (Nat.div_mod j C) at 1 by assumption. lia.
  - refine (rewrites_all _ _ _ _ (fun j => exists c, (c < C)%nat /\ exists s, (s < B)%nat /\ exists d, (d < D)%nat /\ j = at3 C D s c d) _ Li _).
    + refine (rewrites_loop _ _ _ _ _ (fun c j => exists s, (s < B)%nat /\ exists d, (d < D)%nat /\ j = at3 C D s c d) _ _).
      * intros c Hc. refine (rewrites_loop _ _ _ _ _ (fun s j => exists d, (d < D)%nat /\ j = at3 C D s c d) _ _).
        -- intros s Hs. refine (rewrites_loop _ _ _ _ _ (fun d j => j = at3 C D s c d) _ _).
           ++ intros d Hd. replace (s * C * D + c * D + d)%nat with (at3 C D s c d) by (unfold at3; ring).
              apply (Cell s c d); auto.
           ++ intros d d' j Hd Hd' -> E. apply at3_inj in E; try assumption. lia.
        -- intros s s' j _ _ (d & Hd & ->) (d' & Hd' & E). apply at3_inj in E; try assumption. lia.
      * intros c c' j Hc Hc' (s & Hs & d & Hd & ->) (s' & Hs' & d' & Hd' & E). apply at3_inj in E; try assumption. lia.
    + intros j Hj. destruct (at3_cover B C D j Hj) as (k & i & l & Hk & Hi & Hl & ->).
      exists i. split; [exact Hi|]. exists k. split; [exact Hk|]. exists l. auto.
Qed.

(** ** The statistics *)
Section Stats.
Variables B C D : nat.
Local Notation N := (B * C * D)%nat.

Definition csum (c : nat) (v : nat -> R) : R := sum B (fun s => sum D (fun d => v (at3 C D s c d))).
Definition cmean (x : list R) (c : nat) : R := csum c (fun i => nth i x 0) / INR (D * B).
Definition csq (x : list R) (c : nat) : R := csum c (fun i => (nth i x 0 - cmean x c) * (nth i x 0 - cmean x c)).

Lemma updateChan_ok op x c ch : length x = N -> (c < C)%nat ->
  updateChan op B C D x c ch = Some
   {| saveMean := cmean x c; saveVar := csq x c;
      runMean := momentum op * cmean x c + (1 - momentum op) * runMean ch;
      runVar := momentum op * (csq x c / INR (D * B - 1)) + (1 - momentum op) * runVar ch |}.
Proof.
  intros L Hc. unfold updateChan.
  rewrite (chanTotal_ok B C D c _ (fun i => nth i x 0) Hc).
  2:{ intros i Hi. apply nth_error_nth'. lia. }
  fold (csum c (fun i => nth i x 0)). fold (cmean x c).
  rewrite (chanTotal_ok B C D c _ (fun i => (nth i x 0 - cmean x c) * (nth i x 0 - cmean x c)) Hc).
  2:{ intros i Hi. unfold aget. rewrite (nth_error_nth' x 0) by lia. reflexivity. }
  reflexivity.
Qed.

Definition newChan op x c ch :=
   {| saveMean := cmean x c; saveVar := csq x c;
      runMean := momentum op * cmean x c + (1 - momentum op) * runMean ch;
      runVar := momentum op * (csq x c / INR (D * B - 1)) + (1 - momentum op) * runVar ch |}.

Lemma flat_map_single {A} (f : nat -> A) L : flat_map (fun i => [f i]) L = map f L.
Proof. induction L as [|a L IH]; cbn; [reflexivity|]. rewrite IH. reflexivity. Qed.

Lemma newChans_training op x : training op = true -> length x = N -> length (chans op) = C ->
  newChans op B C D x = Some (map (fun c => newChan op x c (nth c (chans op) ch0)) (seq 0 C)).
Proof.
  intros T L Lc. unfold newChans. rewrite T. rewrite <- flat_map_single.
  rewrite <- (loop_append C (fun c => match aget (chans op) c with
       | None => None | Some ch => match updateChan op B C D x c ch with Some ch' => Some [ch'] | None => None end end)
       (fun c => [newChan op x c (nth c (chans op) ch0)])).
  - unfold loop. apply foldM_ext. intros c acc Hc. destruct (aget (chans op) c); [|reflexivity].
    destruct (updateChan op B C D x c c0); reflexivity.
  - intros c Hc. unfold aget. rewrite (nth_error_nth' (chans op) ch0) by lia. rewrite updateChan_ok by assumption. reflexivity.
Qed.

(** the result of the forward pass *)
Definition after op chs := {| momentum := momentum op; epsilon := epsilon op; training := training op; chans := chs |}.

Lemma bnDo_training op x : training op = true -> length x = N -> length (chans op) = C ->
  bnDo op B C D x = Some
   (after op (map (fun c => newChan op x c (nth c (chans op) ch0)) (seq 0 C)),
    map (fun j => (nth j x 0 - cmean x (row3 C D j)) / sqrt (csq x (row3 C D j) / INR (D * B) + epsilon op)) (seq 0 N)).
Proof.
  intros T L Lc. unfold bnDo, bnPrealloc. rewrite newChans_training by assumption.
  rewrite scaleAll_ok by (try rewrite map_length, seq_length; auto). f_equal. f_equal.
  apply map_ext_in. intros j Hj. apply in_seq in Hj.
  destruct (at3_cover B C D j ltac:(lia)) as (s & c & d & Hs & Hc & Hd & E).
  destruct (at3_div C D s c d Hc Hd) as [_ [Ec _]]. rewrite <- E in Ec. rewrite Ec.
  set (F := fun c => newChan op x c (nth c (chans op) ch0)).
  rewrite (nth_error_nth (map F (seq 0 C)) c ch0 (x := F c)) by (rewrite nth_error_map, nth_seq0 by exact Hc; reflexivity).
  unfold betaOf, alphaOf. rewrite T. cbn [saveMean saveVar F newChan]. unfold F, newChan. cbn [saveMean saveVar].
  unfold Rdiv. ring.
Qed.

Lemma bnDo_eval op x : training op = false -> length x = N -> length (chans op) = C ->
  bnDo op B C D x = Some
   (after op (map zeroSaved (chans op)),
    map (fun j => (nth j x 0 - runMean (nth (row3 C D j) (chans op) ch0)) / sqrt (runVar (nth (row3 C D j) (chans op) ch0) + epsilon op)) (seq 0 N)).
Proof.
  intros T L Lc. unfold bnDo, bnPrealloc, newChans. rewrite T.
  rewrite scaleAll_ok by (try rewrite map_length; auto). unfold after. rewrite T. apply f_equal, f_equal2; [reflexivity|].
  apply map_ext_in. intros j Hj. apply in_seq in Hj.
  destruct (at3_cover B C D j ltac:(lia)) as (s & c & d & Hs & Hc & Hd & E).
  destruct (at3_div C D s c d Hc Hd) as [_ [Ec _]]. rewrite <- E in Ec. rewrite Ec.
  rewrite (nth_indep _ ch0 (zeroSaved ch0)) by (rewrite map_length; lia). rewrite map_nth.
  unfold betaOf, alphaOf. rewrite T. unfold zeroSaved. cbn [runMean runVar]. unfold Rdiv. ring.
Qed.

(** ** The gradient operator *)
Definition gmean (g : list R) (c : nat) : R := csum c (fun i => nth i g 0) / INR (D * B).
Definition invstd op (ch : chan) : R := 1 / sqrt (saveVar ch / INR (D * B) + epsilon op).
Definition tgrad op (chs : list chan) (x g : list R) (j : nat) : R :=
  let c := row3 C D j in
  let ch := nth c chs ch0 in
  let iv := invstd op ch in
  (nth j g 0 - gmean g c - (nth j x 0 - saveMean ch) * (csum c (fun i => (nth i x 0 - saveMean ch) * nth i g 0) * iv * iv / INR (D * B))) * iv.

Lemma csum_ext c f g : (c < C)%nat -> (forall i, (i < N)%nat -> f i = g i) -> csum c f = csum c g.
Proof. intros Hc H. unfold csum. apply sum_ext. intros s Hs. apply sum_ext. intros d Hd. apply H, at3_lt; assumption. Qed.

Lemma cover_channels j : (j < N)%nat ->
  exists c, (c < C)%nat /\ exists s, (s < B)%nat /\ exists d, (d < D)%nat /\ j = at3 C D s c d.
Proof. intro Hj. destruct (at3_cover B C D j Hj) as (k & i & l & Hk & Hi & Hl & ->). exists i. split; eauto 10. Qed.

Lemma bnDiff_writes op x g (t : nat -> R) ig : length ig = N ->
  (forall c ch, (c < C)%nat -> nth_error (chans op) c = Some ch ->
     writes N t (fun ig => if (D =? 1)%nat then diffChan1 op B C x g c ch ig else diffChanN op B C D x g c ch ig)
       (fun j => exists s, (s < B)%nat /\ exists d, (d < D)%nat /\ j = at3 C D s c d)) ->
  length (chans op) = C ->
  bnDiff op B C D x g ig = Some (map t (seq 0 N)).
Proof.
  intros Li H Lc. unfold bnDiff.
  refine (writes_all N t _ (fun j => exists c, (c < C)%nat /\ exists s, (s < B)%nat /\ exists d, (d < D)%nat /\ j = at3 C D s c d) _ _ _ Li).
  - refine (writes_loop N t C _ (fun c j => exists s, (s < B)%nat /\ exists d, (d < D)%nat /\ j = at3 C D s c d) _).
    intros c Hc. destruct (aget_some (chans op) c ltac:(lia)) as [ch E]. rewrite E. apply H; assumption.
  - apply cover_channels.
Qed.

Lemma bnDiff_training op x g ig : training op = true -> length x = N -> length g = N -> length ig = N ->
  length (chans op) = C ->
  bnDiff op B C D x g ig = Some (map (tgrad op (chans op) x g) (seq 0 N)).
Proof.
  intros T Lx Lg Li Lc. apply bnDiff_writes; try assumption. intros c ch Hc Ech.
  assert (Gx : forall i, (i < N)%nat -> aget x i = Some (nth i x 0)) by (intros; apply nth_error_nth'; lia).
  assert (Gg : forall i, (i < N)%nat -> aget g i = Some (nth i g 0)) by (intros; apply nth_error_nth'; lia).
  assert (Nc : nth c (chans op) ch0 = ch) by (apply nth_error_nth; exact Ech).
  destruct (Nat.eqb_spec D 1) as [E1|E1].
  - unfold diffChan1. rewrite T.
    assert (EB : (B * 1)%nat = B) by lia. rewrite EB.
    assert (T1 : chanTotal B C 1 c (fun i => aget g i) = Some (csum c (fun i => nth i g 0))).
    { rewrite <- E1. apply chanTotal_ok; assumption. }
    assert (T2 : chanTotal B C 1 c (fun i => match aget x i, aget g i with Some a, Some b => Some ((a - saveMean ch) * b) | _, _ => None end)
                 = Some (csum c (fun i => (nth i x 0 - saveMean ch) * nth i g 0))).
    { rewrite <- E1. apply chanTotal_ok; [assumption|]. intros i Hi. rewrite Gx, Gg by assumption. reflexivity. }
    rewrite T1, T2. rewrite <- E1.
    apply writes_channel; [assumption|]. intros i out Hi Ri. rewrite Gx, Gg by assumption. f_equal.
    unfold tgrad, invstd, gmean. rewrite Ri, Nc. replace (D * B)%nat with B by (rewrite E1; lia). unfold Rdiv. ring.
  - unfold diffChanN. rewrite T.
    rewrite (chanTotal_ok B C D c (fun i => aget g i) (fun i => nth i g 0)) by assumption.
    rewrite (chanTotal_ok B C D c _ (fun i => (nth i x 0 - saveMean ch) * nth i g 0)).
    2: assumption.
    2: { intros i Hi. rewrite Gx, Gg by assumption. f_equal. ring. }
    apply writes_channel; [assumption|]. intros i out Hi Ri. rewrite Gx, Gg by assumption. f_equal.
    unfold tgrad, invstd, gmean, csum. rewrite Ri, Nc. rewrite (Nat.mul_comm B D). unfold Rdiv. ring.
Qed.

Lemma bnDiff_eval op x g ig : training op = false -> length x = N -> length g = N -> length ig = N ->
  length (chans op) = C ->
  bnDiff op B C D x g ig = Some (map (fun j =>
     let ch := nth (row3 C D j) (chans op) ch0 in
     nth j g 0 * (1 / sqrt ((if (D =? 1)%nat then runVar ch else saveVar ch / INR (D * B)) + epsilon op))) (seq 0 N)).
Proof.
  intros T Lx Lg Li Lc. apply bnDiff_writes; try assumption. intros c ch Hc Ech.
  assert (Gx : forall i, (i < N)%nat -> aget x i = Some (nth i x 0)) by (intros; apply nth_error_nth'; lia).
  assert (Gg : forall i, (i < N)%nat -> aget g i = Some (nth i g 0)) by (intros; apply nth_error_nth'; lia).
  assert (Nc : nth c (chans op) ch0 = ch) by (apply nth_error_nth; exact Ech).
  destruct (Nat.eqb_spec D 1) as [E1|E1].
  - unfold diffChan1. rewrite T.
    assert (EB : (B * 1)%nat = B) by lia. rewrite EB.
    assert (T1 : chanTotal B C 1 c (fun i => aget g i) = Some (csum c (fun i => nth i g 0))).
    { rewrite <- E1. apply chanTotal_ok; assumption. }
    assert (T2 : chanTotal B C 1 c (fun i => match aget x i, aget g i with Some a, Some b => Some ((a - runVar ch) * b) | _, _ => None end)
                 = Some (csum c (fun i => (nth i x 0 - runVar ch) * nth i g 0))).
    { rewrite <- E1. apply chanTotal_ok; [assumption|]. intros i Hi. rewrite Gx, Gg by assumption. reflexivity. }
    rewrite T1, T2. rewrite <- E1.
    apply writes_channel; [assumption|]. intros i out Hi Ri. rewrite Gg by assumption. f_equal.
    cbv zeta. rewrite Ri, Nc. reflexivity.
  - unfold diffChanN. rewrite T.
    rewrite (chanTotal_ok B C D c (fun i => aget g i) (fun i => nth i g 0)) by assumption.
    rewrite (chanTotal_ok B C D c _ (fun i => nth i x 0 * nth i g 0 - saveMean ch * nth i g 0)).
    2: assumption.
    2: { intros i Hi. rewrite Gx, Gg by assumption. reflexivity. }
    apply writes_channel; [assumption|]. intros i out Hi Ri. rewrite Gg by assumption. f_equal.
    cbv zeta. rewrite Ri, Nc, (Nat.mul_comm B D). reflexivity.
Qed.
End Stats.
