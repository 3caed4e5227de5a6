(** Proofs for pooling and upsampling. *)
From Coq Require Import Arith ZArith Reals List Bool Lia Ring Lra.
From Verif Require Import Sums LoopModel LoopProofs ConvModel ConvSpec ConvProofs PoolModel PoolSpec.
Import ListNotations.
Local Open Scope nat_scope.

Lemma foldM_map {B C S} (g : C -> S -> option S) (l : B -> C) L s :
  foldM g (map l L) s = foldM (fun x => g (l x)) L s.
Proof. revert s. induction L as [|a L IH]; intro s; simpl; [reflexivity|]. destruct (g (l a) s); auto. Qed.

(** ** The window as a list of indices *)
Definition span (p stride pad k size : nat) : list nat :=
  seq (Z.to_nat (winStart p stride pad)) (Z.to_nat (winEnd p stride pad k size) - Z.to_nat (winStart p stride pad)).
Definition winList (op : poolOp) (inH inW ph pw : nat) : list nat :=
  flat_map (fun hi => map (fun wi => hi * inW + wi) (span pw (pstrideW op) (usedPadW op) (pw_ op) inW))
    (span ph (pstrideH op) (usedPadH op) (ph_ op) inH).

Lemma window_list {S} op inH inW ph pw (body : nat -> S -> option S) s :
  window op inH inW ph pw body s = foldM body (winList op inH inW ph pw) s.
Proof.
  unfold window, zloop, winList. apply foldM_flat. intros i t _.
  unfold zloop. rewrite foldM_map. reflexivity.
Qed.

Lemma span_in p stride pad k size r :
  In r (span p stride pad k size) <-> r < size /\ p * stride <= r + pad < p * stride + k.
Proof.
  unfold span, winStart, winEnd. rewrite in_seq. split; intro H; lia.
Qed.

Definition windowOf (op : poolOp) := in_window (ph_ op) (pw_ op) (usedPadH op) (usedPadW op) (pstrideH op) (pstrideW op).

Lemma winList_in op inH inW ph pw i :
  In i (winList op inH inW ph pw) <-> windowOf op inH inW ph pw i.
Proof.
  unfold winList, windowOf, in_window. rewrite in_flat_map. split.
  - intros [r [Hr H]]. apply in_map_iff in H. destruct H as [c [<- Hc]].
    apply span_in in Hr. apply span_in in Hc. exists r, c. tauto.
  - intros (r & c & H1 & H2 & -> & H3 & H4). exists r. split; [apply span_in; tauto|].
    apply in_map_iff. exists c. split; [reflexivity|apply span_in; tauto].
Qed.

Lemma windowOf_lt op inH inW ph pw i : windowOf op inH inW ph pw i -> i < inH * inW.
Proof. intros (r & c & H1 & H2 & -> & _). nia. Qed.

(** ** Planes *)
Section Planes.
Context {V : Type}.

Lemma plane_ok (n m : nat) (f : nat * nat -> list V * list Z -> option (list V * list Z)) (a0 : V) (b0 : Z)
  (va : nat * nat -> V) (vb : nat * nat -> Z) :
  (forall ph pw d1 r1 d2 r2, ph < n -> pw < m -> length d1 = ph * m + pw -> length d2 = ph * m + pw ->
     f (ph, pw) (d1 ++ a0 :: r1, d2 ++ b0 :: r2) = Some (d1 ++ va (ph, pw) :: r1, d2 ++ vb (ph, pw) :: r2)) ->
  foldM f (pairs n m) (repeat a0 (n * m), repeat b0 (n * m)) = Some (map va (pairs n m), map vb (pairs n m)).
Proof.
  intro H. rewrite <- pairs_length.
  assert (G : forall rest done, pairs n m = done ++ rest ->
    foldM f rest (map va done ++ repeat a0 (length rest), map vb done ++ repeat b0 (length rest))
    = Some (map va (pairs n m), map vb (pairs n m))).
  { induction rest as [|[ph pw] rest IH]; intros done E.
    - rewrite app_nil_r in E. subst. cbn [foldM length repeat]. rewrite !app_nil_r. reflexivity.
    - assert (N : nth_error (pairs n m) (length done) = Some (ph, pw)).
      { rewrite E, nth_error_app2, Nat.sub_diag by lia. reflexivity. }
      apply pairs_nth_inv in N. destruct N as [N [Hp Hw]].
      cbn [foldM length repeat]. rewrite H by (try rewrite map_length; assumption).
      specialize (IH (done ++ [(ph, pw)])). rewrite <- app_assoc in IH. specialize (IH E).
      rewrite !map_app in IH. cbn [map] in IH. rewrite <- !app_assoc in IH. exact IH. }
  apply (G (pairs n m) []). reflexivity.
Qed.

Lemma overPlanes_ok (plane : list V -> option (list V * list Z)) planes size data
  (o : nat -> list V) (m : nat -> list Z) :
  length data = planes * size ->
  (forall k, k < planes -> plane (chunk data size k) = Some (o k, m k)) ->
  overPlanes plane planes size data = Some (flat_map o (seq 0 planes), flat_map m (seq 0 planes)).
Proof.
  intros Hl H. unfold overPlanes, loop.
  assert (G : forall n, n <= planes ->
    foldM (fun k acc =>
      match aslice data (k * size) ((k + 1) * size) with
      | Some p => match plane p with
                  | Some (o, m) => Some (fst acc ++ o, snd acc ++ m)
                  | None => None
                  end
      | None => None
      end) (seq 0 n) ([], []) = Some (flat_map o (seq 0 n), flat_map m (seq 0 n))).
  { induction n as [|n IH]; intro Hn; [reflexivity|].
    rewrite seq_S, foldM_app, IH by lia. cbn [foldM Nat.add].
    rewrite (aslice_chunk data size n planes) by (try exact Hl; lia). rewrite H by lia.
    rewrite !flat_map_app. cbn [flat_map fst snd]. rewrite !app_nil_r. reflexivity. }
  apply G. lia.
Qed.
End Planes.

(** ** Maximum *)
Section Max.
Context {V : Type}.
Variable gtb : V -> V -> bool.
Variable low : V.

Definition bestStep (data : list V) (st : V * Z) (i : nat) : V * Z :=
  let x := nth i data low in if gtb x (fst st) then (x, Z.of_nat i) else st.
Definition best (data : list V) (L : list nat) : V * Z := fold_left (bestStep data) L (low, (-1)%Z).

Lemma best_spec data L : strict_order gtb ->
  (forall j, In j L -> gtb (nth j data low) (fst (best data L)) = false) /\
  ((exists i, In i L /\ best data L = (nth i data low, Z.of_nat i) /\ gtb (nth i data low) low = true) \/
   best data L = (low, (-1)%Z)).
Proof.
  intros [Irr Tr]. unfold best. induction L as [|i L IH] using rev_ind.
  - split; [intros j []|right; reflexivity].
  - rewrite fold_left_app. cbn [fold_left]. set (st := fold_left (bestStep data) L (low, (-1)%Z)) in *.
    destruct IH as [I1 I2]. unfold bestStep. destruct (gtb (nth i data low) (fst st)) eqn:E.
    + cbn [fst snd]. split.
      * intros j Hj. apply in_app_or in Hj. destruct Hj as [Hj|[<-|[]]]; [|apply Irr].
        apply (Tr _ (fst st)); auto.
      * left. exists i. split; [apply in_or_app; right; left; reflexivity|]. split; [reflexivity|].
        destruct I2 as [(i' & _ & I2 & G)|I2].
        -- destruct (gtb (nth i data low) low) eqn:F; [reflexivity|].
           rewrite I2 in E. cbn [fst] in E. rewrite (Tr _ _ _ F G) in E. discriminate.
        -- rewrite I2 in E. exact E.
    + split.
      * intros j Hj. apply in_app_or in Hj. destruct Hj as [Hj|[<-|[]]]; auto.
      * destruct I2 as [(i' & Hi & I2)|I2]; [|right; exact I2].
        left. exists i'. split; [apply in_or_app; left; exact Hi|exact I2].
Qed.

Lemma aget_mid {B} (d : list B) a r k : length d = k -> aget (d ++ a :: r) k = Some a.
Proof. intros <-. unfold aget. rewrite nth_error_app2, Nat.sub_diag by lia. reflexivity. Qed.
Lemma aset_mid {B} (d : list B) a r k v : length d = k -> aset (d ++ a :: r) k v = Some (d ++ v :: r).
Proof. intros <-. apply aset_app. Qed.

Lemma cell_ok data k L : forall (d1 r1 : list V) (d2 r2 : list Z) a b,
  (forall i, In i L -> i < length data) -> length d1 = k -> length d2 = k ->
  foldM (fun i st =>
    match aget data i, aget (fst st) k with
    | Some x, Some o =>
        if gtb x o then
          match aset (fst st) k x, aset (snd st) k (Z.of_nat i) with
          | Some o', Some m' => Some (o', m')
          | _, _ => None
          end
        else Some st
    | _, _ => None
    end) L (d1 ++ a :: r1, d2 ++ b :: r2)
  = Some (d1 ++ fst (fold_left (bestStep data) L (a, b)) :: r1,
          d2 ++ snd (fold_left (bestStep data) L (a, b)) :: r2).
Proof.
  induction L as [|i L IH]; intros d1 r1 d2 r2 a b H H1 H2; [reflexivity|].
  cbn [foldM fold_left fst snd]. unfold aget at 1.
  rewrite (nth_error_nth' data low) by (apply H; left; reflexivity).
  rewrite aget_mid by exact H1. unfold bestStep at 2 4. cbn [fst].
  destruct (gtb (nth i data low) a).
  - rewrite !aset_mid by assumption. apply IH; auto. intros; apply H; right; assumption.
  - apply IH; auto. intros; apply H; right; assumption.
Qed.

Lemma maxPlane_ok op inH inW outH outW data : length data = inH * inW ->
  maxPlane V gtb low op inH inW outH outW data =
  Some (map (fun p => fst (best data (winList op inH inW (fst p) (snd p)))) (pairs outH outW),
        map (fun p => snd (best data (winList op inH inW (fst p) (snd p)))) (pairs outH outW)).
Proof.
  intro Hl. unfold maxPlane. rewrite loop2_pairs. apply plane_ok.
  intros ph pw d1 r1 d2 r2 Hp Hw H1 H2. cbv zeta. cbn [fst snd]. rewrite window_list.
  rewrite cell_ok; auto. intros i Hi. apply winList_in in Hi. rewrite Hl. eapply windowOf_lt, Hi.
Qed.

Lemma plane_entry {B} (f : nat -> list B) n k ph pw outH outW (g : nat -> nat * nat -> B) :
  (forall i, i < n -> f i = map (g i) (pairs outH outW)) ->
  k < n -> ph < outH -> pw < outW ->
  nth_error (flat_map f (seq 0 n)) ((k * outH + ph) * outW + pw) = Some (g k (ph, pw)).
Proof.
  intros H Hk Hp Hw. replace ((k * outH + ph) * outW + pw) with (k * (outH * outW) + (ph * outW + pw)) by nia.
  rewrite (nth_flat_map_seq f (outH * outW)); [|intros; rewrite H by assumption; rewrite map_length; apply pairs_length|exact Hk|nia].
  rewrite H by exact Hk. rewrite nth_error_map, pairs_nth by assumption. reflexivity.
Qed.

Lemma maxPoolDo_ok op planes inH inW data : strict_order gtb -> length data = planes * (inH * inW) ->
  exists o m, maxPoolDo V gtb low op planes inH inW data = Some (o, m) /\
    length o = planes * (pooledH op inH * pooledW op inW) /\ length m = length o /\
    forall k ph pw, k < planes -> ph < pooledH op inH -> pw < pooledW op inW ->
      exists x z, nth_error o ((k * pooledH op inH + ph) * pooledW op inW + pw) = Some x /\
                  nth_error m ((k * pooledH op inH + ph) * pooledW op inW + pw) = Some z /\
        (forall i v, windowOf op inH inW ph pw i -> nth_error data (k * (inH * inW) + i) = Some v -> gtb v x = false) /\
        ((exists i, z = Z.of_nat i /\ windowOf op inH inW ph pw i /\
                    nth_error data (k * (inH * inW) + i) = Some x /\ gtb x low = true) \/
         (x = low /\ z = (-1)%Z)).
Proof.
  intros So Hl. unfold maxPoolDo.
  set (B := fun k p => best (chunk data (inH * inW) k) (winList op inH inW (fst p) (snd p))).
  set (P := pairs (pooledH op inH) (pooledW op inW)).
  eexists _, _. split; [apply (overPlanes_ok _ _ _ _ (fun k => map (fun p => fst (B k p)) P) (fun k => map (fun p => snd (B k p)) P)); [exact Hl|]|].
  - intros k Hk. rewrite maxPlane_ok; [reflexivity|]. eapply chunk_length; eauto.
  - split; [apply flat_map_seq_length; intros; rewrite map_length; apply pairs_length|].
    split; [erewrite !flat_map_seq_length by (intros; rewrite map_length; apply pairs_length); reflexivity|].
    intros k ph pw Hk Hp Hw. exists (fst (B k (ph, pw))), (snd (B k (ph, pw))).
    split; [apply (plane_entry _ _ _ _ _ _ _ (fun k p => fst (B k p))); auto|].
    split; [apply (plane_entry _ _ _ _ _ _ _ (fun k p => snd (B k p))); auto|].
    assert (Lc : length (chunk data (inH * inW) k) = inH * inW) by (eapply chunk_length; eauto).
    assert (Rd : forall i, i < inH * inW -> nth_error data (k * (inH * inW) + i) = Some (nth i (chunk data (inH * inW) k) low)).
    { intros i Hi. rewrite chunk_nth by exact Hi. apply nth_error_nth'. nia. }
    destruct (best_spec (chunk data (inH * inW) k) (winList op inH inW ph pw) So) as [S1 S2].
    fold (B k (ph, pw)) in S1, S2. change (best _ _) with (B k (ph, pw)) in S1, S2. split.
    + intros i v Hi Hv. rewrite Rd in Hv by (eapply windowOf_lt, Hi). injection Hv as <-.
      apply S1. apply winList_in. exact Hi.
    + destruct S2 as [(i & Hi & E & G)|E]; [left|right; rewrite E; auto].
      apply winList_in in Hi. exists i. rewrite E. cbn [fst snd]. split; [reflexivity|]. split; [exact Hi|].
      split; [apply Rd; eapply windowOf_lt, Hi|exact G].
Qed.
End Max.

(** Every window holds a pixel when the padding is smaller than the kernel. *)
Lemma window_not_empty kh kw pH pW sH sW inH inW ph pw :
  1 <= sH -> 1 <= sW -> 1 <= inH -> 1 <= inW -> pH < kh -> pW < kw ->
  ph < (inH + pH + pH - kh) / sH + 1 -> kh <= inH + pH + pH ->
  pw < (inW + pW + pW - kw) / sW + 1 -> kw <= inW + pW + pW ->
  exists i, in_window kh kw pH pW sH sW inH inW ph pw i.
Proof.
  intros HsH HsW HH HW HpH HpW Hph Kh Hpw Kw.
  assert (E1 : ph * sH <= inH + pH + pH - kh).
  { assert (M := Nat.mul_div_le (inH + pH + pH - kh) sH ltac:(lia)). nia. }
  assert (E2 : pw * sW <= inW + pW + pW - kw).
  { assert (M := Nat.mul_div_le (inW + pW + pW - kw) sW ltac:(lia)). nia. }
  exists ((ph * sH - pH) * inW + (pw * sW - pW)), (ph * sH - pH), (pw * sW - pW).
  repeat split; lia.
Qed.

(** ** The gradient of max pooling *)
Section MaxDiff.
Context {A : Type} {CR : CRing A}.
Add Ring Aring3 : (@cr_th A CR).

Lemma firstn_nth {B} (l : list B) n x : nth_error l n = Some x -> firstn (S n) l = firstn n l ++ [x].
Proof.
  revert n. induction l as [|a l IH]; intros [|n] H; try discriminate.
  - injection H as ->. reflexivity.
  - cbn [firstn app]. f_equal. apply IH. exact H.
Qed.

Definition sel (u : list A) (z : Z) : A := nth (Z.to_nat z) u r0.

Lemma maxDiffPlane_ok size outH outW g mask :
  length g = outH * outW -> length mask = outH * outW ->
  (forall z, In z mask -> (0 <= z < Z.of_nat size)%Z) ->
  exists r, maxDiffPlane size outH outW g mask = Some r /\ length r = size /\
    forall u, length u = size -> dot u r = dot (map (sel u) mask) g.
Proof.
  intros Hg Hm Hz. unfold maxDiffPlane. rewrite loop2_pairs.
  destruct (foldM_inv (fun p (inDiff : list A) =>
     match aget mask (fst p * outW + snd p), aget g (fst p * outW + snd p) with
     | Some inIndex, Some v => incrZ inDiff inIndex v
     | _, _ => None
     end)
     (fun done d => length d = size /\ forall u, length u = size ->
        dot u d = dot (map (sel u) (firstn (length done) mask)) (firstn (length done) g))
     (pairs outH outW) (repeat r0 size)) as [r [F [L D]]].
  - split; [apply repeat_length|]. intros u _. rewrite dot_zero. reflexivity.
  - intros done [ph pw] rest d E [Ld Dd]. cbn [fst snd].
    assert (N : nth_error (pairs outH outW) (length done) = Some (ph, pw)).
    { rewrite E, nth_error_app2, Nat.sub_diag by lia. reflexivity. }
    apply pairs_nth_inv in N. destruct N as [N [Hp Hw]].
    rewrite <- N. assert (K : length done < outH * outW) by nia.
    destruct (aget_some mask (length done)) as [z Ez]; [lia|].
    destruct (aget_some g (length done)) as [v Ev]; [lia|]. rewrite Ez, Ev.
    assert (Z1 : (0 <= z < Z.of_nat size)%Z) by (apply Hz; eapply nth_error_In, Ez).
    unfold incrZ. destruct (Z.ltb_spec z 0) as [?|_]; [lia|].
    destruct (incr_some d (Z.to_nat z) v) as [d' Ed]; [lia|].
    exists d'. split; [exact Ed|].
    split; [destruct (dot_incr d d d' _ _ Ed eq_refl) as [_ ->]; exact Ld|].
    intros u Hu. destruct (dot_incr d u d' _ _ Ed ltac:(lia)) as [-> _]. rewrite Dd by exact Hu.
    rewrite app_length. cbn [length]. rewrite Nat.add_1_r.
    rewrite (firstn_nth mask _ _ Ez), (firstn_nth g _ _ Ev), map_app, dot_app
      by (rewrite map_length, !firstn_length; lia).
    cbn [map dot]. unfold sel at 3. ring.
  - exists r. split; [exact F|]. split; [exact L|]. intros u Hu. rewrite D by exact Hu.
    rewrite pairs_length, !firstn_all2 by lia. reflexivity.
Qed.

Lemma maxDiffPlane_panics size outH outW g mask z :
  length g = outH * outW -> length mask = outH * outW -> In z mask -> (z < 0)%Z ->
  maxDiffPlane size outH outW g mask = None.
Proof.
  intros Hg Hm Hz Neg. unfold maxDiffPlane. rewrite loop2_pairs.
  apply In_nth_error in Hz. destruct Hz as [n Hn].
  assert (Hlt : n < outH * outW). { rewrite <- Hm. apply nth_error_Some. rewrite Hn. discriminate. }
  assert (exists ph pw, nth_error (pairs outH outW) n = Some (ph, pw)) as (ph & pw & Np).
  { destruct (nth_error (pairs outH outW) n) as [[ph pw]|] eqn:E; [eauto|].
    apply nth_error_None in E. rewrite pairs_length in E. lia. }
  pose proof (pairs_nth_inv _ _ _ _ _ Np) as [En _].
  apply nth_error_split in Np. destruct Np as (l1 & l2 & E & El). rewrite E, foldM_app.
  destruct (foldM _ l1 _) as [d|]; [|reflexivity]. cbn [foldM fst snd].
  rewrite <- En. unfold aget at 1. rewrite Hn. destruct (aget g n); [|reflexivity].
  unfold incrZ. destruct (Z.ltb_spec z 0); [reflexivity|lia].
Qed.

Lemma foldM_none {B S} (f : B -> S -> option S) l x l' s :
  (forall t, f x t = None) -> foldM f (l ++ x :: l') s = None.
Proof. intro H. rewrite foldM_app. destruct (foldM f l s); [|reflexivity]. cbn [foldM]. rewrite H. reflexivity. Qed.

Lemma In_chunk {B} (l : list B) m i x : In x (firstn m (skipn (i * m) l)) -> In x l.
Proof.
  intro H. rewrite <- (firstn_skipn (i * m) l). apply in_or_app. right.
  rewrite <- (firstn_skipn m (skipn (i * m) l)). apply in_or_app. left. exact H.
Qed.

Lemma maxDiffDo_ok planes inH inW outH outW g mask :
  length g = planes * (outH * outW) -> length mask = planes * (outH * outW) ->
  (forall z, In z mask -> (0 <= z < Z.of_nat (inH * inW))%Z) ->
  exists r, maxDiffDo planes inH inW outH outW g mask = Some r /\ length r = planes * (inH * inW) /\
    forall u s, length u = planes * (inH * inW) -> length s = length g ->
      (forall k j z, k < planes -> j < outH * outW -> nth_error mask (k * (outH * outW) + j) = Some z ->
         nth_error s (k * (outH * outW) + j) = nth_error u (k * (inH * inW) + Z.to_nat z)) ->
      dot u r = dot s g.
Proof.
  intros Hg Hm Hz.
  set (m := outH * outW) in *. set (sz := inH * inW) in *.
  assert (X : forall k, exists r, k < planes -> maxDiffPlane sz outH outW (chunk g m k) (chunk mask m k) = Some r /\
     length r = sz /\ forall u, length u = sz -> dot u r = dot (map (sel u) (chunk mask m k)) (chunk g m k)).
  { intro k. destruct (Nat.lt_ge_cases k planes) as [Hk|Hk]; [|exists []; lia].
    destruct (maxDiffPlane_ok sz outH outW (chunk g m k) (chunk mask m k)) as [r R].
    - eapply chunk_length; eauto.
    - eapply chunk_length; eauto.
    - intros z H. apply Hz. eapply In_chunk, H.
    - exists r. intros _. exact R. }
  assert (exists rf, forall k, k < planes -> maxDiffPlane sz outH outW (chunk g m k) (chunk mask m k) = Some (rf k) /\
     length (rf k) = sz /\ forall u, length u = sz -> dot u (rf k) = dot (map (sel u) (chunk mask m k)) (chunk g m k)) as [rf R].
  { clear -X. exists (fun k => match maxDiffPlane sz outH outW (chunk g m k) (chunk mask m k) with Some r => r | None => [] end).
    intros k Hk. destruct (X k) as [r R]. destruct (R Hk) as [E R']. rewrite E. auto. }
  exists (flat_map rf (seq 0 planes)). split; [|split].
  - unfold maxDiffDo. fold m sz.
    rewrite <- (loop_append planes (fun k => match aslice g (k * m) ((k + 1) * m), aslice mask (k * m) ((k + 1) * m) with
       | Some g', Some m' => maxDiffPlane sz outH outW g' m' | _, _ => None end) rf).
    + unfold loop. apply foldM_ext. intros k acc _.
      destruct (aslice g (k * m) ((k + 1) * m)); [|reflexivity].
      destruct (aslice mask (k * m) ((k + 1) * m)); [|reflexivity]. reflexivity.
    + intros k Hk. rewrite (aslice_chunk g m k planes), (aslice_chunk mask m k planes) by assumption.
      apply R. exact Hk.
  - apply flat_map_seq_length. intros k Hk. apply R. exact Hk.
  - intros u s Hu Hs Hsel.
    rewrite <- (chunks_concat sz planes u Hu), <- (chunks_concat m planes g Hg), <- (chunks_concat m planes s) by lia.
    assert (G : forall L, (forall k, In k L -> k < planes) ->
      dot (flat_map (chunk u sz) L) (flat_map rf L) = dot (flat_map (chunk s m) L) (flat_map (chunk g m) L)).
    { induction L as [|k L IH]; intro HL; [reflexivity|]. cbn [flat_map].
      assert (Hk : k < planes) by (apply HL; left; reflexivity).
      assert (Lu : length (chunk u sz k) = sz) by (eapply chunk_length; eauto).
      assert (Lg : length (chunk g m k) = m) by (eapply chunk_length; eauto).
      assert (Lm : length (chunk mask m k) = m) by (eapply chunk_length; eauto).
      assert (Ls : length (chunk s m k) = m) by (apply (chunk_length s m k planes); lia).
      destruct (R k Hk) as (_ & Lr & D).
      rewrite !dot_app by lia. rewrite IH by (intros; apply HL; right; assumption). f_equal.
      rewrite D by exact Lu. f_equal. apply nth_ext with (d := r0) (d' := r0); [rewrite map_length; lia|].
      intros j Hj. rewrite map_length, Lm in Hj.
      assert (exists z, nth_error mask (k * m + j) = Some z) as [z Ez] by (apply aget_some; nia).
      assert (Ez' : nth_error (chunk mask m k) j = Some z).
      { unfold chunk. rewrite nth_firstn, nth_skipn by exact Hj. exact Ez. }
      assert (Z1 := Hz z (nth_error_In _ _ Ez)).
      transitivity (sel (chunk u sz k) z).
      - apply nth_error_nth. rewrite nth_error_map, Ez'. reflexivity.
      - unfold sel. rewrite !chunk_nth by lia. specialize (Hsel k j z Hk Hj Ez).
        assert (Bs : k * m + j < length s) by nia.
        rewrite (nth_error_nth' s r0 Bs) in Hsel. symmetry. 
        symmetry in Hsel. apply nth_error_nth with (d := r0) in Hsel. symmetry. exact Hsel. }
    apply G. intros k Hk. apply in_seq in Hk. lia.
Qed.
End MaxDiff.
