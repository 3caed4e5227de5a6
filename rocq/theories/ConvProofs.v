(** Proofs for Im2Col, Col2Im and Conv2d. *)
From Coq Require Import Arith ZArith List Bool Lia Ring.
From Verif Require Import Sums LoopModel LoopProofs MatModel ConvModel ConvSpec.
Import ListNotations.
Local Open Scope nat_scope.

Section Proofs.
Context {A : Type} {CR : CRing A}.
Add Ring Aring : (@cr_th A CR).

Definition pos := (nat * nat * nat * nat * nat)%type.
Definition posR (op : im2colOp) (i j ch y : nat) : list pos := map (fun x => (i, j, ch, y, x)) (seq 0 (kw op)).
Definition posC (op : im2colOp) (i j ch : nat) : list pos := flat_map (posR op i j ch) (seq 0 (kh op)).
Definition posO (op : im2colOp) (chans i j : nat) : list pos := flat_map (posC op i j) (seq 0 chans).
Definition posI (op : im2colOp) (chans rw i : nat) : list pos := flat_map (posO op chans i) (seq 0 rw).
Definition positions (op : im2colOp) (chans rh rw : nat) : list pos :=
  flat_map (posI op chans rw) (seq 0 rh).

(** The pixel a position falls on. *)
Definition src (op : im2colOp) (h w : nat) (p : pos) : option nat :=
  let '(i, j, ch, y, x) := p in
  let ir := inputRow op i y in
  let ic := inputCol op j x in
  if (0 <=? ir)%Z && (ir <? Z.of_nat h)%Z && (0 <=? ic)%Z && (ic <? Z.of_nat w)%Z
  then Some (h * w * ch + Z.to_nat ir * w + Z.to_nat ic) else None.

Lemma positions_length op chans rh rw :
  length (positions op chans rh rw) = rh * (rw * (chans * (kh op * kw op))).
Proof.
  unfold positions. apply flat_map_seq_length. intros i _.
  apply flat_map_seq_length. intros j _. apply flat_map_seq_length. intros ch _.
  apply flat_map_seq_length. intros y _. unfold posR. rewrite map_length, seq_length. reflexivity.
Qed.

Lemma posR_length op i j ch y : length (posR op i j ch y) = kw op.
Proof. unfold posR. rewrite map_length, seq_length. reflexivity. Qed.
Lemma posC_length op i j ch : length (posC op i j ch) = kh op * kw op.
Proof. apply flat_map_seq_length. intros. apply posR_length. Qed.
Lemma posO_length op chans i j : length (posO op chans i j) = chans * (kh op * kw op).
Proof. apply flat_map_seq_length. intros. apply posC_length. Qed.
Lemma posI_length op chans rw i : length (posI op chans rw i) = rw * (chans * (kh op * kw op)).
Proof. apply flat_map_seq_length. intros. apply posO_length. Qed.

Lemma idx_lt i m n j : i < n -> j < m -> i * m + j < n * m.
Proof. intros. nia. Qed.

Lemma positions_nth op chans rh rw i j ch y x :
  i < rh -> j < rw -> ch < chans -> y < kh op -> x < kw op ->
  nth_error (positions op chans rh rw)
    (i * (rw * (chans * (kh op * kw op))) + (j * (chans * (kh op * kw op)) +
      (ch * (kh op * kw op) + (y * kw op + x)))) = Some (i, j, ch, y, x).
Proof.
  intros Hi Hj Hc Hy Hx.
  assert (X1 : y * kw op + x < kh op * kw op) by (apply idx_lt; assumption).
  assert (X2 : ch * (kh op * kw op) + (y * kw op + x) < chans * (kh op * kw op)) by (apply idx_lt; assumption).
  assert (X3 : j * (chans * (kh op * kw op)) + (ch * (kh op * kw op) + (y * kw op + x))
               < rw * (chans * (kh op * kw op))) by (apply idx_lt; assumption).
  unfold positions. rewrite nth_flat_map_seq; [|intros; apply posI_length|exact Hi|exact X3].
  unfold posI. rewrite nth_flat_map_seq; [|intros; apply posO_length|exact Hj|exact X2].
  unfold posO. rewrite nth_flat_map_seq; [|intros; apply posC_length|exact Hc|exact X1].
  unfold posC. rewrite nth_flat_map_seq; [|intros; apply posR_length|exact Hy|exact Hx].
  unfold posR. rewrite nth_error_map, nth_seq0 by exact Hx. reflexivity.
Qed.

Lemma positions_in op chans rh rw i j ch y x : In (i, j, ch, y, x) (positions op chans rh rw) ->
  i < rh /\ j < rw /\ ch < chans /\ y < kh op /\ x < kw op.
Proof.
  unfold positions, posI, posO, posC, posR. rewrite in_flat_map. intros [i' [Hi H]].
  apply in_flat_map in H. destruct H as [j' [Hj H]]. apply in_flat_map in H. destruct H as [c' [Hc H]].
  apply in_flat_map in H. destruct H as [y' [Hy H]]. apply in_map_iff in H. destruct H as [x' [E Hx]].
  injection E as -> -> -> -> ->. apply in_seq in Hi, Hj, Hc, Hy, Hx. lia.
Qed.

Lemma src_lt op chans h w p i : (let '(_, _, ch, _, _) := p in ch < chans) ->
  src op h w p = Some i -> i < chans * h * w.
Proof.
  destruct p as [[[[a b] ch] y] x]. intros Hc. unfold src.
  destruct (_ && _) eqn:E; [|discriminate]. intro H. injection H as <-.
  rewrite !andb_true_iff in E. destruct E as [[[E1 E2] E3] E4].
  apply Z.leb_le in E1, E3. apply Z.ltb_lt in E2, E4.
  assert (R : Z.to_nat (inputRow op a y) < h) by lia.
  assert (K : Z.to_nat (inputCol op b x) < w) by lia.
  generalize dependent (Z.to_nat (inputRow op a y)). generalize dependent (Z.to_nat (inputCol op b x)).
  intros k Hk r Hr. assert (h * w * ch + r * w + k < h * w * ch + h * w) by nia. nia.
Qed.

(** ** Im2Col is a gather *)
Definition gather (op : im2colOp) (h w : nat) (im : list A) (p : pos) : option A :=
  match src op h w p with Some i => aget im i | None => Some r0 end.
Definition gatherV (op : im2colOp) (h w : nat) (im : list A) (p : pos) : A :=
  match src op h w p with Some i => nth i im r0 | None => r0 end.

Lemma im2colF_fold op chans h w rh rw im col :
  im2colF op chans h w rh rw im col =
  match foldM (fun p st => match gather op h w im p with
                           | None => None
                           | Some v => match aset (fst st) (snd st) v with
                                       | Some c => Some (c, S (snd st))
                                       | None => None
                                       end
                           end) (positions op chans rh rw) (col, 0) with
  | Some (c, _) => Some c
  | None => None
  end.
Proof.
  unfold im2colF, positions.
  rewrite (loop_flat rh _ (fun p st => match gather op h w im p with
                           | None => None
                           | Some v => match aset (fst st) (snd st) v with
                                       | Some c => Some (c, S (snd st))
                                       | None => None
                                       end
                           end) (posI op chans rw)); [reflexivity|].
  intros i t1 _. apply loop_flat. intros j t2 _. apply loop_flat. intros ch t3 _.
  apply loop_flat. intros y t4 _. cbv zeta. unfold posR.
  apply loop_map. intros x t5 _. unfold gather, src, push.
  set (ir := inputRow op i y). set (ic := inputCol op j x).
  destruct (Z.ltb_spec ir 0) as [H1|H1]; destruct (Z.leb_spec 0 ir) as [H2|H2]; try lia;
    cbn [orb andb]; [reflexivity|].
  destruct (Z.leb_spec (Z.of_nat h) ir) as [H3|H3]; destruct (Z.ltb_spec ir (Z.of_nat h)) as [H4|H4]; try lia;
    cbn [orb andb]; [reflexivity|].
  destruct (Z.ltb_spec ic 0) as [H5|H5]; destruct (Z.leb_spec 0 ic) as [H6|H6]; try lia;
    cbn [orb andb]; [reflexivity|].
  destruct (Z.leb_spec (Z.of_nat w) ic) as [H7|H7]; destruct (Z.ltb_spec ic (Z.of_nat w)) as [H8|H8]; try lia;
    cbn [orb andb]; reflexivity.
Qed.

Lemma gather_ok op chans h w im p : length im = chans * h * w ->
  (let '(_, _, ch, _, _) := p in ch < chans) ->
  gather op h w im p = Some (gatherV op h w im p).
Proof.
  intros Hl Hc. unfold gather, gatherV. destruct (src op h w p) as [i|] eqn:E; [|reflexivity].
  unfold aget. apply nth_error_nth'. rewrite Hl. eapply src_lt; eauto.
Qed.

Lemma im2colF_ok op chans h w rh rw im col :
  length im = chans * h * w -> length col = rh * (rw * (chans * (kh op * kw op))) ->
  im2colF op chans h w rh rw im col = Some (map (gatherV op h w im) (positions op chans rh rw)).
Proof.
  intros Hi Hc. rewrite im2colF_fold.
  pose proof (fill_ok (gather op h w im) (gatherV op h w im) (positions op chans rh rw) [] col) as F.
  cbn [app length] in F. rewrite F; [reflexivity| |rewrite positions_length; exact Hc].
  intros p Hp. apply (gather_ok op chans); [exact Hi|].
  destruct p as [[[[a b] ch] y] x]. apply positions_in in Hp. tauto.
Qed.

(** ** Col2Im is a scatter *)
Lemma zero_loop (im : list A) : loop (length im) (fun i im => aset im i r0) im = Some (repeat r0 (length im)).
Proof.
  unfold loop.
  assert (G : forall (r d : list A), foldM (fun i im => aset im i r0) (seq (length d) (length r)) (d ++ r)
              = Some (d ++ repeat r0 (length r))).
  { induction r as [|x r IH]; intro d; cbn [length seq foldM repeat]; [rewrite app_nil_r; reflexivity|].
    rewrite aset_app. specialize (IH (d ++ [r0])). rewrite app_length in IH. cbn [length] in IH.
    rewrite Nat.add_1_r in IH. rewrite <- app_assoc in IH. cbn [app] in IH. rewrite IH, <- app_assoc. reflexivity. }
  apply (G im []).
Qed.

Definition scatterStep (op : im2colOp) (h w : nat) (col : list A) (p : pos) (st : list A * nat)
  : option (list A * nat) :=
  match src op h w p with
  | None => Some (fst st, S (snd st))
  | Some i => match aget col (snd st) with
              | Some v => match incr (fst st) i v with
                          | Some im' => Some (im', S (snd st))
                          | None => None
                          end
              | None => None
              end
  end.

Lemma col2imF_fold op chans h w rh rw col im :
  col2imF op chans h w rh rw col im =
  match foldM (scatterStep op h w col) (positions op chans rh rw) (repeat r0 (length im), 0) with
  | Some (c, _) => Some c
  | None => None
  end.
Proof.
  unfold col2imF. rewrite zero_loop. unfold positions.
  rewrite (loop_flat rh _ (scatterStep op h w col) (posI op chans rw)); [reflexivity|].
  intros i t1 _. apply loop_flat. intros j t2 _. apply loop_flat. intros ch t3 _.
  apply loop_flat. intros y t4 _. cbv zeta. unfold posR.
  apply loop_map. intros x t5 _. unfold scatterStep, src.
  set (ir := inputRow op i y). set (ic := inputCol op j x).
  destruct (Z.ltb_spec ir 0) as [H1|H1]; destruct (Z.leb_spec 0 ir) as [H2|H2]; try lia;
    cbn [orb andb]; [reflexivity|].
  destruct (Z.leb_spec (Z.of_nat h) ir) as [H3|H3]; destruct (Z.ltb_spec ir (Z.of_nat h)) as [H4|H4]; try lia;
    cbn [orb andb]; [reflexivity|].
  destruct (Z.leb_spec 0 ic) as [H6|H6]; cbn [orb andb]; [|reflexivity].
  destruct (Z.ltb_spec ic (Z.of_nat w)) as [H8|H8]; reflexivity.
Qed.

Lemma dot_incr (im u im' : list A) i v : incr im i v = Some im' -> length u = length im ->
  dot u im' = radd (dot u im) (rmul (nth i u r0) v) /\ length im' = length im.
Proof.
  unfold incr, aget. revert i u im'. induction im as [|x im IH]; intros i u im' H Hl.
  - destruct i; discriminate.
  - destruct u as [|a u]; [discriminate|]. destruct i as [|i]; cbn [nth_error aset nth] in *.
    + injection H as <-. cbn [dot length]. split; [ring|reflexivity].
    + destruct (nth_error im i) as [y|] eqn:E; [|discriminate].
      destruct (aset im i (radd y v)) as [l|] eqn:E2; [|discriminate]. injection H as <-.
      specialize (IH i u l). rewrite E in IH. destruct IH as [D L]; [exact E2|simpl in Hl; lia|].
      cbn [dot length]. rewrite D. split; [ring|lia].
Qed.

Lemma incr_some (im : list A) i v : i < length im -> exists im', incr im i v = Some im'.
Proof.
  intro H. unfold incr. destruct (aget_some im i H) as [x E]. rewrite E.
  destruct (aset_some im i (radd x v) H) as [l [E2 _]]. eauto.
Qed.

Lemma scatter_ok op h w (L : list pos) : forall (col1 col2 im0 : list A),
  length col2 = length L ->
  (forall p i, In p L -> src op h w p = Some i -> i < length im0) ->
  exists im1, foldM (scatterStep op h w (col1 ++ col2)) L (im0, length col1) = Some (im1, length col1 + length L)
    /\ length im1 = length im0
    /\ forall u, length u = length im0 ->
         dot u im1 = radd (dot u im0) (dot (map (gatherV op h w u) L) col2).
Proof.
  induction L as [|p L IH]; intros col1 col2 im0 Hl Hs.
  - exists im0. simpl. rewrite Nat.add_0_r. split; [reflexivity|]. split; [reflexivity|].
    intros u Hu. ring.
  - destruct col2 as [|g col2]; [discriminate|]. cbn [foldM].
    assert (Step : exists im', scatterStep op h w (col1 ++ g :: col2) p (im0, length col1)
        = Some (im', S (length col1)) /\ length im' = length im0 /\
        forall u, length u = length im0 -> dot u im' = radd (dot u im0) (rmul (gatherV op h w u p) g)).
    { unfold gatherV, scatterStep. cbn [fst snd]. destruct (src op h w p) as [i|] eqn:E.
      - unfold aget. rewrite nth_error_app2, Nat.sub_diag by lia. cbn [nth_error].
        destruct (incr_some im0 i g (Hs p i (or_introl eq_refl) E)) as [im' Ei]. rewrite Ei.
        exists im'. split; [reflexivity|]. split.
        + apply (dot_incr im0 im0 im' i g Ei eq_refl).
        + intros u Hu. apply (dot_incr im0 u im' i g Ei Hu).
      - exists im0. split; [reflexivity|]. split; [reflexivity|]. intros u Hu. ring. }
    destruct Step as [im' [Es [Ls Ds]]]. rewrite Es.
    specialize (IH (col1 ++ [g]) col2 im'). rewrite app_length, <- app_assoc in IH. cbn [length app] in IH.
    rewrite Nat.add_1_r in IH. destruct IH as [im1 [F [L1 D1]]].
    + simpl in Hl. lia.
    + intros q i Hq Ei. rewrite Ls. apply (Hs q i); [right; exact Hq|exact Ei].
    + exists im1. cbn [length]. split; [rewrite F; f_equal; f_equal; lia|]. split; [lia|].
      intros u Hu. rewrite (D1 u) by lia. rewrite (Ds u Hu). cbn [map dot]. ring.
Qed.

Lemma dot_zero (u : list A) n : dot u (repeat r0 n) = r0.
Proof.
  revert n. induction u as [|a u IH]; intros [|n]; cbn [repeat dot]; try reflexivity.
  rewrite IH. ring.
Qed.

Lemma col2imF_ok op chans h w rh rw col im :
  length im = chans * h * w -> length col = rh * (rw * (chans * (kh op * kw op))) ->
  exists r, col2imF op chans h w rh rw col im = Some r /\ length r = chans * h * w /\
    forall u, length u = chans * h * w ->
      dot u r = dot (map (gatherV op h w u) (positions op chans rh rw)) col.
Proof.
  intros Hi Hc. rewrite col2imF_fold.
  destruct (scatter_ok op h w (positions op chans rh rw) [] col (repeat r0 (length im)))
    as [im1 [F [L D]]].
  - rewrite positions_length. exact Hc.
  - intros p i Hp E. rewrite repeat_length, Hi. eapply src_lt; [|exact E].
    destruct p as [[[[a b] ch] y] x]. apply positions_in in Hp. tauto.
  - cbn [app length] in F. rewrite F. exists im1. rewrite repeat_length in L, D.
    split; [reflexivity|]. split; [lia|]. intros u Hu. rewrite D by lia. rewrite dot_zero. ring.
Qed.

(** ** Batches *)
Lemma dot_app (a a' b b' : list A) : length a = length b -> dot (a ++ a') (b ++ b') = radd (dot a b) (dot a' b').
Proof.
  revert b. induction a as [|x a IH]; intros [|y b] H; try discriminate; cbn [app dot].
  - ring.
  - rewrite IH by (simpl in H; lia). ring.
Qed.

Lemma dot_comm (a b : list A) : dot a b = dot b a.
Proof.
  revert b. induction a as [|x a IH]; intros [|y b]; try reflexivity. cbn [dot]. rewrite IH. ring.
Qed.

Definition chunk (l : list A) (m i : nat) : list A := firstn m (skipn (i * m) l).

Lemma chunk_length l m i n : length l = n * m -> i < n -> length (chunk l m i) = m.
Proof.
  intros Hl Hi. unfold chunk. rewrite firstn_length, skipn_length. nia.
Qed.

Lemma aslice_chunk (l : list A) m i n : length l = n * m -> i < n ->
  aslice l (i * m) ((i + 1) * m) = Some (chunk l m i).
Proof.
  intros Hl Hi. rewrite aslice_some by nia. unfold chunk. repeat f_equal. nia.
Qed.

Lemma chunks_concat m : forall n (l : list A), length l = n * m -> flat_map (chunk l m) (seq 0 n) = l.
Proof.
  induction n as [|n IH]; intros l Hl.
  - destruct l; [reflexivity|discriminate].
  - rewrite seq_S, flat_map_app. cbn [flat_map]. rewrite app_nil_r. cbn [Nat.add].
    rewrite <- (firstn_skipn (n * m) l) at 3.
    f_equal.
    + rewrite <- (IH (firstn (n * m) l)) by (rewrite firstn_length; nia).
      rewrite !flat_map_concat_map. f_equal. apply map_ext_in. intros i Hi. apply in_seq in Hi.
      unfold chunk. rewrite skipn_firstn_comm, firstn_firstn. f_equal. nia.
    + unfold chunk. apply firstn_all2. rewrite skipn_length. nia.
Qed.

Lemma chunk_nth l m i j d : j < m -> nth j (chunk l m i) d = nth (i * m + j) l d.
Proof.
  intro H. unfold chunk.
  destruct (Nat.lt_ge_cases (i * m + j) (length l)) as [L|L].
  - apply nth_error_nth with (d := d). rewrite nth_firstn by exact H. rewrite nth_skipn.
    apply nth_error_nth'. exact L.
  - rewrite (nth_overflow l) by lia. apply nth_overflow. rewrite firstn_length, skipn_length. lia.
Qed.

Lemma loop_append (n : nat) (f : nat -> option (list A)) (r : nat -> list A) :
  (forall i, i < n -> f i = Some (r i)) ->
  loop n (fun i acc => match f i with Some x => Some (acc ++ x) | None => None end) []
  = Some (flat_map r (seq 0 n)).
Proof.
  intro H. unfold loop.
  assert (G : forall L acc, (forall i, In i L -> i < n) ->
    foldM (fun i acc => match f i with Some x => Some (acc ++ x) | None => None end) L acc
    = Some (acc ++ flat_map r L)).
  { induction L as [|i L IH]; intros acc HL; simpl; [rewrite app_nil_r; reflexivity|].
    rewrite H by (apply HL; left; reflexivity). rewrite IH by (intros j Hj; apply HL; right; exact Hj).
    rewrite app_assoc. reflexivity. }
  rewrite G; [reflexivity|]. intros i Hi. apply in_seq in Hi. lia.
Qed.

Definition colSize (op : im2colOp) (c h w : nat) : nat :=
  retH op h * retW op w * (c * kw op * kh op).

Lemma colSize_eq op c h w : colSize op c h w = retH op h * (retW op w * (c * (kh op * kw op))).
Proof. unfold colSize. nia. Qed.

Definition im2colV (op : im2colOp) (c h w : nat) (im : list A) (i : nat) : list A :=
  map (gatherV op h w (chunk im (c * h * w) i)) (positions op c (retH op h) (retW op w)).

Lemma im2colDo_ok op b c h w im col :
  length im = b * (c * h * w) -> length col = b * colSize op c h w ->
  im2colDo op b c h w im col = Some (flat_map (im2colV op c h w im) (seq 0 b)).
Proof.
  intros Hi Hc. unfold im2colDo. cbv zeta. fold (colSize op c h w).
  rewrite <- (loop_append b (fun i => match aslice im (i * (c * h * w)) ((i + 1) * (c * h * w)),
          aslice col (i * colSize op c h w) ((i + 1) * colSize op c h w) with
    | Some imi, Some coli => im2colF op c h w (retH op h) (retW op w) imi coli
    | _, _ => None
    end)).
  - unfold loop. apply foldM_ext. intros i acc _.
    destruct (aslice im _ _); [|reflexivity]. destruct (aslice col _ _); reflexivity.
  - intros i Hib. rewrite (aslice_chunk im _ i b), (aslice_chunk col _ i b) by assumption.
    apply im2colF_ok.
    + eapply chunk_length; eassumption.
    + rewrite <- colSize_eq. eapply chunk_length; eassumption.
Qed.

Lemma im2colV_length op c h w im i : length (im2colV op c h w im i) = colSize op c h w.
Proof. unfold im2colV. rewrite map_length, positions_length, colSize_eq. reflexivity. Qed.

Lemma col2imDo_ok op b c h w col im :
  length im = b * (c * h * w) -> length col = b * colSize op c h w ->
  exists r, col2imDo op b c h w (retH op h) (retW op w) (c * kw op * kh op) col im = Some r /\
    length r = b * (c * h * w) /\
    (forall u, length u = b * (c * h * w) ->
       dot u r = dot (flat_map (im2colV op c h w u) (seq 0 b)) col) /\
    (forall im', length im' = b * (c * h * w) ->
       col2imDo op b c h w (retH op h) (retW op w) (c * kw op * kh op) col im' = Some r).
Proof.
  intros Hi Hc. unfold col2imDo. cbv zeta. fold (colSize op c h w).
  assert (G : forall i, exists r, i < b ->
    (forall im, length im = b * (c * h * w) ->
    match aslice col (i * colSize op c h w) ((i + 1) * colSize op c h w),
          aslice im (i * (c * h * w)) ((i + 1) * (c * h * w)) with
    | Some coli, Some imi => col2imF op c h w (retH op h) (retW op w) coli imi
    | _, _ => None
    end = Some r) /\ length r = c * h * w /\
    forall u, length u = c * h * w ->
      dot u r = dot (map (gatherV op h w u) (positions op c (retH op h) (retW op w))) (chunk col (colSize op c h w) i)).
  { intro i. destruct (Nat.lt_ge_cases i b) as [H|H]; [|exists []; intro; lia].
    destruct (col2imF_ok op c h w (retH op h) (retW op w) (chunk col (colSize op c h w) i) (chunk im (c * h * w) i))
      as [r [F [L D]]].
    { eapply chunk_length; eassumption. }
    { rewrite <- colSize_eq. eapply chunk_length; eassumption. }
    exists r. intros _. split; [|split; assumption]. intros im2 Hi2.
    rewrite (aslice_chunk im2 _ i b), (aslice_chunk col _ i b) by assumption.
    rewrite <- F, !col2imF_fold. do 3 f_equal. rewrite (chunk_length im2 _ i b), (chunk_length im _ i b) by assumption.
    reflexivity. }
  assert (Ch : exists R : nat -> list A, forall i, i < b -> 
    (forall im, length im = b * (c * h * w) ->
    match aslice col (i * colSize op c h w) ((i + 1) * colSize op c h w),
          aslice im (i * (c * h * w)) ((i + 1) * (c * h * w)) with
    | Some coli, Some imi => col2imF op c h w (retH op h) (retW op w) coli imi
    | _, _ => None
    end = Some (R i)) /\ length (R i) = c * h * w /\
    forall u, length u = c * h * w ->
      dot u (R i) = dot (map (gatherV op h w u) (positions op c (retH op h) (retW op w))) (chunk col (colSize op c h w) i)).
  { clear Hi Hc. revert G. generalize b at 1 3. intro n. revert n.
    induction n as [|n IH]; intro G; [exists (fun _ => []); intros; lia|].
    destruct IH as [R HR].
    { intro i. destruct (G i) as [r Hr]. exists r. intro; apply Hr; lia. }
    destruct (G n) as [r Hr]. exists (fun i => if Nat.eqb i n then r else R i).
    intros i Hin. destruct (Nat.eqb_spec i n) as [->|]; [apply Hr; lia|apply HR; lia]. }
  destruct Ch as [R HR].
  assert (Run : forall im, length im = b * (c * h * w) ->
    loop b (fun i acc => match aslice col (i * colSize op c h w) ((i + 1) * colSize op c h w),
          aslice im (i * (c * h * w)) ((i + 1) * (c * h * w)) with
    | Some coli, Some imi => match col2imF op c h w (retH op h) (retW op w) coli imi with Some r => Some (acc ++ r) | None => None end
    | _, _ => None
    end) [] = Some (flat_map R (seq 0 b))).
  { intros im2 Hi2. rewrite <- (loop_append b (fun i => match aslice col (i * colSize op c h w) ((i + 1) * colSize op c h w),
          aslice im2 (i * (c * h * w)) ((i + 1) * (c * h * w)) with
    | Some coli, Some imi => col2imF op c h w (retH op h) (retW op w) coli imi
    | _, _ => None
    end)).
    - unfold loop. apply foldM_ext. intros i acc _.
      destruct (aslice col _ _); [|reflexivity]. destruct (aslice im2 _ _); reflexivity.
    - intros i Hib. apply HR; assumption. }
  exists (flat_map R (seq 0 b)). split; [apply Run; exact Hi|]. split; [|split].
  - rewrite (flat_map_seq_length R (c * h * w)); [reflexivity|]. intros i Hib. apply HR; exact Hib.
  - intros u Hu. rewrite <- (chunks_concat (c * h * w) b u Hu) at 1.
    rewrite <- (chunks_concat (colSize op c h w) b col Hc) at 1.
    assert (K : forall L, (forall i, In i L -> i < b) ->
      dot (flat_map (chunk u (c * h * w)) L) (flat_map R L) =
      dot (flat_map (im2colV op c h w u) L) (flat_map (chunk col (colSize op c h w)) L)).
    { induction L as [|i L IH]; intro HL; [reflexivity|]. cbn [flat_map].
      assert (Hib : i < b) by (apply HL; left; reflexivity).
      destruct (HR i Hib) as [_ [L1 D1]].
      rewrite !dot_app.
      - rewrite IH by (intros j Hj; apply HL; right; exact Hj). f_equal.
        apply D1. eapply chunk_length; eassumption.
      - rewrite im2colV_length. symmetry. eapply chunk_length; eassumption.
      - rewrite L1. eapply chunk_length; eassumption. }
    apply K. intros i Hib. apply in_seq in Hib. lia.
  - exact Run.
Qed.

(** ** Entries *)
Lemma gatherV_padded op c h w im bi i j ch y x : ch < c ->
  gatherV op h w (chunk im (c * h * w) bi) (i, j, ch, y, x)
  = padded c h w im bi ch (inputRow op i y) (inputCol op j x).
Proof.
  intros Hc. unfold gatherV, padded.
  destruct (src op h w (i, j, ch, y, x)) as [k|] eqn:E.
  - pose proof (src_lt op c h w (i, j, ch, y, x) k Hc E) as Hk. rewrite chunk_nth by exact Hk.
    unfold src in E.
    destruct ((0 <=? inputRow op i y)%Z && (inputRow op i y <? Z.of_nat h)%Z &&
              (0 <=? inputCol op j x)%Z && (inputCol op j x <? Z.of_nat w)%Z); [|discriminate].
    injection E as <-. f_equal. nia.
  - unfold src in E.
    destruct ((0 <=? inputRow op i y)%Z && (inputRow op i y <? Z.of_nat h)%Z &&
              (0 <=? inputCol op j x)%Z && (inputCol op j x <? Z.of_nat w)%Z); [discriminate|reflexivity].
Qed.

Lemma im2col_entry op b c h w im bi i j ch y x :
  bi < b -> i < retH op h -> j < retW op w -> ch < c -> y < kh op -> x < kw op ->
  nth_error (flat_map (im2colV op c h w im) (seq 0 b))
    (bi * colSize op c h w + (i * (retW op w * (c * (kh op * kw op))) +
      (j * (c * (kh op * kw op)) + (ch * (kh op * kw op) + (y * kw op + x)))))
  = Some (padded c h w im bi ch (inputRow op i y) (inputCol op j x)).
Proof.
  intros Hb Hi Hj Hc Hy Hx.
  pose proof (positions_nth op c (retH op h) (retW op w) i j ch y x Hi Hj Hc Hy Hx) as P.
  rewrite nth_flat_map_seq.
  - unfold im2colV. rewrite nth_error_map, P. cbn [option_map]. rewrite gatherV_padded by exact Hc.
    reflexivity.
  - intros; apply im2colV_length.
  - exact Hb.
  - rewrite colSize_eq, <- (positions_length op c (retH op h) (retW op w)).
    apply nth_error_Some. rewrite P. discriminate.
Qed.

Lemma sum3 a b c (f : nat -> A) :
  sum (a * (b * c)) f = sum a (fun i => sum b (fun j => sum c (fun k => f (i * (b * c) + (j * c + k))))).
Proof.
  rewrite sum_prod. apply sum_ext. intros i _. rewrite sum_prod. reflexivity.
Qed.

Lemma conv2d_ok op b c h w layer kernel row col im filter :
  im2colOk op = true -> c * kw op * kh op = kernel * row * col ->
  length im = b * (c * h * w) ->
  exists out, conv2d op b c h w layer kernel row col im filter
                = Some ([b; layer; retH op h; retW op w], out) /\
    length out = b * (layer * (retH op h * retW op w)) /\
    forall bi l i j, bi < b -> l < layer -> i < retH op h -> j < retW op w ->
      nth_error out (((bi * layer + l) * retH op h + i) * retW op w + j)
      = Some (conv_at c h w (kh op) (kw op) (padH op) (padW op) (strideH op) (strideW op)
                (dilationH op) (dilationW op) im filter bi l i j).
Proof.
  intros Hok Hz Hi. unfold conv2d. rewrite Hok. cbn [negb].
  rewrite <- Hz, Nat.eqb_refl. cbn [negb]. fold (colSize op c h w).
  rewrite im2colDo_ok by (try rewrite repeat_length; try reflexivity; exact Hi).
  unfold matMul, matMulKernel, trIf, tr, asMat. cbn [rows cols el]. rewrite Nat.eqb_refl.
  cbn [rows cols el].
  set (colIm := flat_map (im2colV op c h w im) (seq 0 b)).
  eexists. split; [reflexivity|].
  set (m := retH op h) in *. set (n := retW op w) in *. set (z := c * kw op * kh op) in *.
  assert (L1 : forall bi l i, length (map (fun j => sum z (fun k => rmul
     (nth (((bi * m + i) * n + j) * z + k) colIm r0) (nth (l * z + k) filter r0))) (seq 0 n)) = n).
  { intros. rewrite map_length, seq_length. reflexivity. }
  assert (L2 : forall bi l, length (flat_map (fun i => map (fun j => sum z (fun k => rmul
     (nth (((bi * m + i) * n + j) * z + k) colIm r0) (nth (l * z + k) filter r0))) (seq 0 n)) (seq 0 m)) = m * n).
  { intros. apply flat_map_seq_length. intros; apply L1. }
  assert (L3 : forall bi, length (flat_map (fun l => flat_map (fun i => map (fun j => sum z (fun k => rmul
     (nth (((bi * m + i) * n + j) * z + k) colIm r0) (nth (l * z + k) filter r0))) (seq 0 n)) (seq 0 m)) (seq 0 layer))
     = layer * (m * n)).
  { intros. apply flat_map_seq_length. intros; apply L2. }
  split; [apply flat_map_seq_length; intros; apply L3|].
  intros bi l i j Hb Hl Him Hjn.
  replace (((bi * layer + l) * m + i) * n + j) with (bi * (layer * (m * n)) + (l * (m * n) + (i * n + j))) by nia.
  rewrite nth_flat_map_seq; [|intros; apply L3|exact Hb|apply idx_lt; [exact Hl|apply idx_lt; assumption]].
  rewrite nth_flat_map_seq; [|intros; apply L2|exact Hl|apply idx_lt; assumption].
  rewrite nth_flat_map_seq; [|intros; apply L1|exact Him|exact Hjn].
  rewrite nth_error_map, nth_seq0 by exact Hjn. cbn [option_map]. f_equal.
  unfold conv_at. replace z with (c * (kh op * kw op)) by (unfold z; nia). rewrite sum3.
  apply sum_ext. intros ch Hc. apply sum_ext. intros y Hy. apply sum_ext. intros x Hx.
  f_equal.
  - pose proof (im2col_entry op b c h w im bi i j ch y x Hb Him Hjn Hc Hy Hx) as E.
    fold colIm in E. rewrite colSize_eq in E. fold m in E. fold n in E.
    replace (((bi * m + i) * n + j) * (c * (kh op * kw op)) + (ch * (kh op * kw op) + (y * kw op + x)))
      with (bi * (m * (n * (c * (kh op * kw op)))) + (i * (n * (c * (kh op * kw op))) +
             (j * (c * (kh op * kw op)) + (ch * (kh op * kw op) + (y * kw op + x))))) by nia.
    rewrite (nth_error_nth _ _ r0 E). f_equal; unfold inputRow, inputCol; lia.
  - f_equal. nia.
Qed.
End Proofs.
