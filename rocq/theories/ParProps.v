(** C122: runInParallel and the loops of batch and group normalisation. *)
From Coq Require Import List Arith Bool Lia.
From Verif Require Import ParModel ParSpec ParProofs.
Import ListNotations.
Local Open Scope nat_scope.

(** If no callback stores to a cell another one uses, runInParallel does what the plain loop
    does, under every schedule. *)
Theorem C122_apart : forall V (cb : nat -> prog V) n rd wr,
  (forall i, i < n -> touches (rd i) (wr i) (cb i)) -> apart rd wr 0 n -> likeALoop cb n.
Proof. intros. eapply like_a_loop; eauto. Qed.
Print Assumptions C122_apart.

(** Otherwise it need not: two callbacks that both add 1 to a cell can leave 1. *)
Theorem C122_shared_refuted :
  let cb := fun _ => Rd (0, 0) (fun x => Wr (0, 0) (x + 1) Done) in
  exists s, steps 2 cb (start 0 (fun _ => 0)) s /\ returned 2 s /\ memory s (0, 0) = 1 /\
    oneByOne cb 0 2 (fun _ => 0) (0, 0) = 2.
Proof.
  intro cb. eexists. split; [|split; [|split]].
  - eapply steps_step; [eapply steps_step; [eapply steps_step; [eapply steps_step; [eapply steps_step;
      [eapply steps_step; [eapply steps_step; [eapply steps_step; [apply steps_refl|]|]|]|]|]|]|]|].
    + apply (SSpawn nat 2 cb 0 [] 0 (fun _ => 0)). lia.
    + apply (SSpawn nat 2 cb 1 [(0, cb 0)] 1 (fun _ => 0)). lia.
    + apply (SLoad nat 2 cb 2 [] 0 (0, 0) (fun x => Wr (0, 0) (x + 1) Done) [(1, cb 1)]).
    + apply (SLoad nat 2 cb 2 [(0, Wr (0, 0) (0 + 1) Done)] 1 (0, 0) (fun x => Wr (0, 0) (x + 1) Done) []).
    + apply (SStore nat 2 cb 2 [] 0 (0, 0) (0 + 1) Done [(1, Wr (0, 0) (0 + 1) Done)]).
    + apply (SStore nat 2 cb 2 [(0, Done)] 1 (0, 0) (0 + 1) Done []).
    + apply (SDone nat 2 cb 2 [] 0 [(1, Done)]).
    + apply (SDone nat 2 cb 2 [] 1 []).
  - split; cbn; lia.
  - reflexivity.
  - reflexivity.
Qed.
Print Assumptions C122_shared_refuted.

Section BN.
Variable V : Type.
Variables (B C D : nat) (add mul sub : V -> V -> V) (zero : V).

(** Batch normalisation.  The memory of the input may be that of the output and that of the
    gradients; only the small slices of statistics have to be others. *)
Theorem C122_batch_norm :
  (forall input saveMean saveVar runMean runVar divN mix mixVar,
     ~ In input [saveMean; saveVar; runMean; runVar] ->
     likeALoop (bnStats B C D add mul sub input saveMean saveVar runMean runVar divN mix mixVar) C) /\
  (forall mean var alpha beta invStd negMul, likeALoop (bnAlphaBeta mul mean var alpha beta invStd negMul) C) /\
  (forall out alpha beta, ~ In out [alpha; beta] -> likeALoop (bnOutSample C add mul out alpha beta) B) /\
  (forall out alpha beta, ~ In out [alpha; beta] -> likeALoop (bnOutChannel B C D add mul out alpha beta) C) /\
  (forall inp dy ig mean var coef first second, ~ In ig [mean; var] ->
     likeALoop (bnDiff B C D add mul sub zero inp dy ig mean var coef first second) C).
Proof.
  split; [|split; [|split; [|split]]].
  - intros input saveMean saveVar runMean runVar divN mix mixVar NI.
    apply (like_a_loop V _ C (fun _ l => fst l = input) (fun c l => In (fst l) [saveMean; saveVar; runMean; runVar] /\ snd l = c)).
    + intros c Hc. unfold bnStats.
      apply touches_loop.
      { intros s a k Hs K. apply touches_loop; [|exact K]. intros d a' k' Hd K'.
        constructor; [right; cbn; auto|]. intro. constructor; [left; reflexivity|]. intro. constructor; [cbn; auto|]. apply K'. }
      intros _. constructor; [right; cbn; auto|]. intro. constructor; [cbn; auto|]. apply touches_loop.
      { intros s a k Hs K. apply touches_loop; [|exact K]. intros d a' k' Hd K'.
        constructor; [left; reflexivity|]. intro. do 3 (constructor; [right; cbn; auto|]; intro). constructor; [cbn; auto|]. apply K'. }
      intros _. do 2 (constructor; [right; cbn; auto|]; intro). constructor; [cbn; auto 10|].
      do 2 (constructor; [right; cbn; auto 10|]; intro). constructor; [cbn; auto 10|]. constructor.
    + intros i j l Hi Hj N [W1 W2]. split; [intro E; rewrite E in W1; contradiction|intros [_ E]; congruence].
  - intros mean var alpha beta invStd negMul.
    apply (like_a_loop V _ C (fun _ _ => False) (fun c l => snd l = c)).
    + intros c Hc. unfold bnAlphaBeta. do 2 (constructor; [right; reflexivity|]; intro). constructor; [reflexivity|].
      constructor; [right; reflexivity|]. intro. constructor; [reflexivity|constructor].
    + intros i j l Hi Hj N W. split; [intros []|congruence].
  - intros out alpha beta NO.
    apply (like_a_loop V _ B (fun _ l => In (fst l) [alpha; beta]) (fun s l => fst l = out /\ exists c, c < C /\ snd l = s * C + c)).
    + intros s Hs. unfold bnOutSample. apply touches_loop; [|intros; constructor]. intros c a k Hc K.
      assert (W : fst (out, s * C + c) = out /\ exists c', c' < C /\ snd (out, s * C + c) = s * C + c') by (cbn; split; [reflexivity|exists c; split; [lia|reflexivity]]).
      constructor; [right; exact W|]. intro. do 2 (constructor; [left; cbn; auto|]; intro). constructor; [exact W|]. apply K.
    + intros i j l Hi Hj N [W1 (c & Hc & W2)]. split; [intro X; rewrite W1 in X; contradiction|].
      intros [_ (c' & Hc' & W3)]. apply N. apply (row_inj C i c j c'); congruence.
  - intros out alpha beta NO.
    apply (like_a_loop V _ C (fun _ l => In (fst l) [alpha; beta])
             (fun c l => fst l = out /\ exists s d, d < D /\ snd l = s * C * D + c * D + d)).
    + intros c Hc. unfold bnOutChannel. apply touches_loop; [|intros; constructor]. intros s a k Hs K.
      apply touches_loop; [|exact K]. intros d a' k' Hd K'.
      assert (W : fst (out, s * C * D + c * D + d) = out /\ exists s' d', d' < D /\ snd (out, s * C * D + c * D + d) = s' * C * D + c * D + d')
        by (cbn; split; [reflexivity|exists s, d; split; [lia|reflexivity]]).
      constructor; [right; exact W|]. intro. do 2 (constructor; [left; cbn; auto|]; intro). constructor; [exact W|]. apply K'.
    + intros i j l Hi Hj N [W1 (s & d & Hd & W2)]. split; [intro X; rewrite W1 in X; contradiction|].
      intros [_ (s' & d' & Hd' & W3)]. apply N. apply (place_inj C D s i d s' j d'); lia.
  - intros inp dy ig mean var coef first second NO.
    apply (like_a_loop V _ C (fun c l => In (fst l) [mean; var] \/ exists s d, d < D /\ snd l = s * C * D + c * D + d)
             (fun c l => fst l = ig /\ exists s d, d < D /\ snd l = s * C * D + c * D + d)).
    + intros c Hc. unfold bnDiff. do 2 (constructor; [left; left; cbn; auto|]; intro). apply touches_loop.
      { intros s a k Hs K. apply touches_loop; [|exact K]. intros d a' k' Hd K'.
        do 2 (constructor; [left; right; exists s, d; split; [lia|reflexivity]|]; intro). apply K'. }
      intros acc. apply touches_loop; [|intros; constructor]. intros s a k Hs K. apply touches_loop; [|exact K]. intros d a' k' Hd K'.
      assert (W : fst (ig, s * C * D + c * D + d) = ig /\ exists s' d', d' < D /\ snd (ig, s * C * D + c * D + d) = s' * C * D + c * D + d')
        by (cbn; split; [reflexivity|exists s, d; split; [lia|reflexivity]]).
      constructor; [left; right; exists s, d; split; [lia|reflexivity]|]. intro. constructor; [exact W|].
      constructor; [left; right; exists s, d; split; [lia|reflexivity]|]. intro. constructor; [right; exact W|]. intro. constructor; [exact W|]. apply K'.
    + intros i j l Hi Hj N [W1 (s & d & Hd & W2)].
      assert (X : ~ exists s' d', d' < D /\ snd l = s' * C * D + j * D + d')
        by (intros (s' & d' & Hd' & W3); apply N; apply (place_inj C D s i d s' j d'); lia).
      split; [intros [Y|Y]; [rewrite W1 in Y; contradiction|contradiction]|tauto].
Qed.

(** Group normalisation with [d] channels to a group and [n] groups over all samples (the
    internal gradients go by channel). *)
Theorem C122_group_norm :
  (forall d n x y meanA rstdA moments scaleAdd, ~ In x [meanA; rstdA] -> ~ In y [meanA; rstdA] ->
     likeALoop (V:=V) (gnForward D d x y meanA rstdA moments scaleAdd) n) /\
  (forall n inp dy dsA dbA, ~ In inp [dsA; dbA] -> ~ In dy [dsA; dbA] ->
     likeALoop (V:=V) (gnInternal D add mul inp dy dsA dbA) n) /\
  (forall d n inp dy dx ds db mean rstd coef value, ~ In dx [ds; db; mean; rstd] ->
     likeALoop (V:=V) (gnGrad D d inp dy dx ds db mean rstd coef value) n).
Proof.
  assert (RW : forall d i j e, (i * d + j) * D + e = i * (d * D) + (j * D + e)) by (intros; nia).
  assert (RB : forall d j e, j < d -> e < D -> j * D + e < d * D) by (intros; nia).
  split; [|split].
  - intros d n x y meanA rstdA moments scaleAdd NX NY.
    apply (like_a_loop V _ n (fun i l => fst l = x /\ exists r, r < d * D /\ snd l = i * (d * D) + r)
             (fun i l => (In (fst l) [meanA; rstdA] /\ snd l = i) \/ (fst l = y /\ exists r, r < d * D /\ snd l = i * (d * D) + r))).
    + intros i Hi. unfold gnForward. apply touches_section; [intros j Hj; cbn; eauto|]. intro sec. cbv zeta. apply touches_loop.
      { intros j a k Hj K. apply touches_loop; [|exact K]. intros e a' k' He K'. rewrite !RW.
        constructor; [left; cbn; split; [reflexivity|]; eexists; split; [|reflexivity]; apply RB; lia|]. intro.
        constructor; [right; cbn; split; [reflexivity|]; eexists; split; [|reflexivity]; apply RB; lia|]. apply K'. }
      intros _. do 2 (constructor; [left; cbn; auto|]). constructor.
    + intros i j l Hi Hj N [[W1 W2]|[W1 (r & Hr & W2)]].
      * split; [intros [E _]; rewrite E in W1; contradiction|]. intros [[_ E]|[E _]]; [congruence|rewrite E in W1; contradiction].
      * assert (X : ~ exists r', r' < d * D /\ snd l = j * (d * D) + r')
          by (intros (r' & Hr' & W3); apply N; apply (row_inj (d * D) i r j r'); congruence).
        split; [tauto|]. intros [[E _]|[_ E]]; [rewrite W1 in E; contradiction|contradiction].
  - intros n inp dy dsA dbA NI ND.
    apply (like_a_loop V _ n (fun _ l => In (fst l) [inp; dy]) (fun i l => In (fst l) [dsA; dbA] /\ snd l = i)).
    + intros i Hi. unfold gnInternal. apply touches_loop; [|intros; constructor]. intros j a k Hj K.
      constructor; [right; cbn; auto|]. intro. do 2 (constructor; [left; cbn; auto|]; intro). constructor; [cbn; auto|].
      constructor; [right; cbn; auto|]. intro. constructor; [left; cbn; auto|]. intro. constructor; [cbn; auto|]. apply K.
    + intros i j l Hi Hj N [W1 W2]. split; [|intros [_ E]; congruence].
      intros [E|[E|[]]]; rewrite <- E in W1; contradiction.
  - intros d n inp dy dx ds db mean rstd coef value NO.
    apply (like_a_loop V _ n (fun i l => In (fst l) [ds; db; mean; rstd] \/ exists r, r < d * D /\ snd l = i * (d * D) + r)
             (fun i l => fst l = dx /\ exists r, r < d * D /\ snd l = i * (d * D) + r)).
    + intros i Hi. unfold gnGrad. apply touches_section; [intros; left; cbn; auto|]. intro. apply touches_section; [intros; left; cbn; auto|]. intro.
      do 2 (constructor; [left; left; cbn; auto 10|]; intro). cbv zeta. apply touches_loop; [|intros; constructor].
      intros j a k Hj K. apply touches_loop; [|exact K]. intros e a' k' He K'. rewrite !RW.
      do 2 (constructor; [left; right; eexists; split; [|reflexivity]; apply RB; lia|]; intro).
      constructor; [cbn; split; [reflexivity|]; eexists; split; [|reflexivity]; apply RB; lia|]. apply K'.
    + intros i j l Hi Hj N [W1 (r & Hr & W2)].
      assert (X : ~ exists r', r' < d * D /\ snd l = j * (d * D) + r')
        by (intros (r' & Hr' & W3); apply N; apply (row_inj (d * D) i r j r'); congruence).
      split; [intros [E|E]; [rewrite W1 in E; contradiction|contradiction]|tauto].
Qed.
End BN.
Print Assumptions C122_batch_norm.
Print Assumptions C122_group_norm.

(** Two samples of two channels, 1 2 / 3 4, alpha 10 100, beta 5 6: the plain loop gives
    15 206 / 35 406, by sample and by channel. *)
Example C122_ex :
  let m : mem nat := fun l => match l with (0, 0) => 1 | (0, 1) => 2 | (0, 2) => 3 | (0, 3) => 4
                             | (1, 0) => 10 | (1, 1) => 100 | (2, 0) => 5 | (2, 1) => 6 | _ => 0 end in
  map (fun i => oneByOne (bnOutSample 2 plus mult 0 1 2) 0 2 m (0, i)) [0; 1; 2; 3] = [15; 206; 35; 406] /\
  map (fun i => oneByOne (bnOutChannel 2 2 1 plus mult 0 1 2) 0 2 m (0, i)) [0; 1; 2; 3] = [15; 206; 35; 406] /\
  (exists s, steps 2 (bnOutSample 2 plus mult 0 1 2) (start 0 m) s /\ returned 2 s).
Proof.
  cbv zeta. split; [reflexivity|]. split; [reflexivity|].
  destruct (C122_batch_norm nat 2 2 1 plus mult minus 0) as (_ & _ & H & _).
  eapply (H 0 1 2 ltac:(cbn; lia)). apply steps_refl.
Qed.

(** The statistics of one channel with entries 2 and 6, sum over the samples and "mean" by
    halving: 4, and the squares 4 + 4. *)
Example C122_ex_stats :
  let m : mem nat := fun l => match l with (0, 0) => 2 | (0, 1) => 6 | _ => 0 end in
  let f := oneByOne (bnStats 2 1 1 plus mult (fun a b => a - b + (b - a)) 0 1 2 3 4 Nat.div2 (fun a r => a + r) (fun v r => v + r)) 0 1 m in
  (f (1, 0), f (2, 0), f (3, 0), f (4, 0)) = (4, 8, 4, 8).
Proof. reflexivity. Qed.
