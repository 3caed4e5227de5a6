(** The memory pool as long as coalescing leaves no stale back link: nothing panics and
    no memory is lost. *)
From Coq Require Import Arith ZArith List Bool Lia Permutation Sorted.
From Verif Require Import BfcModel BfcSpec BfcProofs.
Import ListNotations.
Open Scope Z_scope.

Fixpoint seg (st : mp) (pv : option nat) (ns : list block) (nx : option nat) : Prop :=
  match ns with
  | [] => True
  | (p, (a, z)) :: r => st p = Some (MB a z (hdor (ptrs r) nx) pv) /\ seg st (Some p) r nx
  end.
Lemma seg_app st l1 l2 nx : forall pv, seg st pv (l1 ++ l2) nx <-> seg st pv l1 (hdor (ptrs l2) nx) /\ seg st (lastor (ptrs l1) pv) l2 nx.
Proof.
  induction l1 as [|[p [a z]] l1 IH]; intro pv; cbn [app seg ptrs map fst lastor]; [tauto|]. rewrite IH.
  rewrite ptrs_app. rewrite hdor_app. tauto.
Qed.
Lemma seg_ext st st' ns nx : forall pv, (forall p, In p (ptrs ns) -> st' p = st p) -> seg st pv ns nx -> seg st' pv ns nx.
Proof.
  induction ns as [|[p [a z]] r IH]; intros pv E H; [exact I|]. cbn [seg] in *. destruct H as [H1 H2].
  split; [rewrite E by (left; reflexivity); exact H1|]. apply IH; [intros; apply E; right; assumption|exact H2].
Qed.
(** New successor of the last block. *)
Lemma seg_end st st' ns nx nx' : forall pv, NoDup (ptrs ns) -> seg st pv ns nx ->
  (forall p m, In p (ptrs ns) -> st p = Some m -> st' p = Some (MB (address m) (size m) (if eqO (lastor (ptrs ns) None) p then nx' else next m) (prev m))) ->
  seg st' pv ns nx'.
Proof.
  induction ns as [|[p [a z]] r IH]; intros pv ND H F; [exact I|]. cbn [ptrs map fst] in ND. fold (ptrs r) in ND. inversion ND as [|? ? N1 N2]; subst. cbn [seg] in *. destruct H as [H1 H2].
  split.
  - rewrite (F p _ (or_introl eq_refl) H1). cbn [address size next prev]. do 2 f_equal. cbn [ptrs map fst]. fold (ptrs r). destruct (ptrs r) as [|q l] eqn:E; cbn [lastor hdor].
    + cbn [eqO]. rewrite Nat.eqb_refl. reflexivity.
    + assert (X : eqO (lastor l (Some q)) p = false).
      { apply eqO_false. intro W. apply N1. apply lastor_in in W as [W|[-> W]]; [right; exact W|injection W as ->; left; reflexivity]. }
      rewrite X. reflexivity.
  - apply IH; [exact N2|exact H2|]. intros q m J E. rewrite (F q m (or_intror J) E). cbn [ptrs map fst]. fold (ptrs r). destruct (ptrs r); [destruct J|]. reflexivity.
Qed.
(** New predecessor of the first block. *)
Lemma seg_start st st' ns nx pv pv' : NoDup (ptrs ns) -> seg st pv ns nx ->
  (forall p m, In p (ptrs ns) -> st p = Some m -> st' p = Some (MB (address m) (size m) (next m) (if eqO (hdor (ptrs ns) None) p then pv' else prev m))) ->
  seg st' pv' ns nx.
Proof.
  destruct ns as [|[p [a z]] r]; intros ND H F; [exact I|]. cbn [ptrs map fst] in *. fold (ptrs r) in *. inversion ND as [|? ? N1 N2]; subst. cbn [seg] in *. destruct H as [H1 H2]. cbn [hdor eqO] in F.
  split.
  - rewrite (F p _ (or_introl eq_refl) H1). rewrite Nat.eqb_refl. reflexivity.
  - eapply seg_ext; [|exact H2]. intros q J. assert (exists m, st q = Some m) as [m E].
    { clear - H2 J. revert H2. generalize (Some p). induction r as [|[x [y w]] r IH]; intros o H; [destruct J|]. cbn [seg] in H. destruct H as [H H']. destruct J as [<-|J]; [cbn [fst]; eauto|eapply IH; eauto]. }
    rewrite (F q m (or_intror J) E). rewrite (proj2 (Nat.eqb_neq p q)) by (intros ->; contradiction). rewrite E. destruct m; reflexivity.
Qed.
Lemma seg_some st pv ns nx p : seg st pv ns nx -> In p (ptrs ns) -> exists m, st p = Some m.
Proof.
  revert pv. induction ns as [|[x [y w]] r IH]; intros o H J; [destruct J|]. cbn [seg] in H. destruct H as [H H']. destruct J as [<-|J]; [cbn [fst]; eauto|eapply IH; eauto].
Qed.

Definition before (x y : Z * Z) : Prop := fst x + snd x <= fst y.
Record Dll (s : bfc) (ns : list block) : Prop := {
  d_seg : seg (mem s) None ns None;
  d_first : first s = hdor (ptrs ns) None;
  d_last : ns <> [] -> last s = lastor (ptrs ns) None;
  d_nodup : NoDup (ptrs ns);
  d_lt : Forall (fun p => (p < fresh s)%nat) (ptrs ns);
  d_len : len s = Z.of_nat (length ns);
  d_sorted : StronglySorted before (ivs ns) }.

Lemma dll_length s ns : Dll s ns -> (length ns <= fresh s)%nat.
Proof.
  intro D. assert (El : length (ptrs ns) = length ns) by apply map_length. rewrite <- El. rewrite <- (seq_length (fresh s) 0). apply NoDup_incl_length; [apply (d_nodup _ _ D)|].
  intros p J. pose proof (d_lt _ _ D) as L. rewrite Forall_forall in L. apply in_seq. specialize (L p J). lia.
Qed.
Lemma freeFrom_seg s : forall ns fuel pv, (length ns <= fuel)%nat -> seg (mem s) pv ns None -> freeFrom fuel s (hdor (ptrs ns) None) = ivs ns.
Proof.
  induction ns as [|[p [a z]] r IH]; intros fuel pv Hf H; [destruct fuel; reflexivity|]. cbn [seg] in H. destruct H as [H1 H2].
  destruct fuel as [|fuel]; [cbn [length] in Hf; lia|]. cbn [ptrs map fst hdor freeFrom ivs snd]. rewrite H1. cbn [address size next]. f_equal.
  apply (IH fuel (Some p)); [cbn [length] in Hf; lia|exact H2].
Qed.
Lemma dll_free s ns : Dll s ns -> freeBlocks s = ivs ns.
Proof. intro D. unfold freeBlocks. rewrite (d_first _ _ D). eapply freeFrom_seg; [apply (dll_length _ _ D)|apply (d_seg _ _ D)]. Qed.

Lemma sorted_app l1 l2 : StronglySorted before (l1 ++ l2) <-> StronglySorted before l1 /\ StronglySorted before l2 /\ Forall (fun x => Forall (before x) l2) l1.
Proof.
  induction l1 as [|x l1 IH]; cbn [app].
  - split; [intro H; repeat split; auto; constructor|tauto].
  - split.
    + intro H. inversion H as [|? ? H1 H2]; subst. apply IH in H1 as [A [B C]]. apply Forall_app in H2 as [H2 H3]. repeat split; auto; constructor; auto.
    + intros [A [B C]]. inversion A; subst. inversion C; subst. constructor; [apply IH; auto|]. apply Forall_app. auto.
Qed.

(** Where a block disjoint from a sorted list belongs. *)
Lemma sorted_place a z (l : list block) : 0 < z -> StronglySorted before (ivs l) -> Forall (fun x => 0 < snd x) (ivs l) -> Forall (disjoint (a, z)) (ivs l) ->
  exists n1 n2, l = n1 ++ n2 /\ Forall (fun x => before x (a, z)) (ivs n1) /\ Forall (before (a, z)) (ivs n2).
Proof.
  intros Hz. induction l as [|[p [a' z']] l IH]; intros S P D.
  - exists [], []. repeat split; constructor.
  - cbn [ivs map snd] in *. fold (ivs l) in *. inversion S as [|? ? S1 S2]; subst. inversion P as [|? ? P1 P2]; subst. inversion D as [|? ? D1 D2]; subst. unfold disjoint in D1. cbn [fst snd] in *.
    destruct D1 as [D1|D1].
    + exists [], ((p, (a', z')) :: l). split; [reflexivity|]. split; [constructor|]. cbn [ivs map snd]. fold (ivs l). constructor; [exact D1|].
      rewrite Forall_forall in *. intros x J. specialize (S2 x J). unfold before in *. cbn [fst snd] in *. lia.
    + destruct (IH S1 P2 D2) as [n1 [n2 [-> [A B]]]]. exists ((p, (a', z')) :: n1), n2. split; [reflexivity|]. split; [|exact B]. cbn [ivs map snd]. constructor; [unfold before; cbn [fst snd]; lia|exact A].
Qed.

Record newB (s : bfc) (ns : list block) (k : nat) (a z : Z) : Prop := {
  b_mem : mem s k = Some (MB a z None None);
  b_lt : (k < fresh s)%nat;
  b_out : ~ In k (ptrs ns) }.

Lemma dll_insert_frame s n1 n2 k a z st' fi la ln :
  Dll s (n1 ++ n2) -> newB s (n1 ++ n2) k a z -> Forall (fun x => before x (a, z)) (ivs n1) -> Forall (before (a, z)) (ivs n2) ->
  st' k = Some (MB a z (hdor (ptrs n2) None) (lastor (ptrs n1) None)) ->
  (forall p m, In p (ptrs (n1 ++ n2)) -> mem s p = Some m ->
     st' p = Some (MB (address m) (size m) (if eqO (lastor (ptrs n1) None) p then Some k else next m)
                                           (if eqO (hdor (ptrs n2) None) p then Some k else prev m))) ->
  fi = hdor (ptrs (n1 ++ (k, (a, z)) :: n2)) None -> la = lastor (ptrs (n1 ++ (k, (a, z)) :: n2)) None -> ln = len s + 1 ->
  Dll (withLen (withLast (withFirst (withMem s st') fi) la) ln) (n1 ++ (k, (a, z)) :: n2).
Proof.
  intros D N B1 B2 Sk Sp -> -> ->. pose proof (d_nodup _ _ D) as ND. rewrite ptrs_app in ND, Sp.
  assert (Nk := b_out _ _ _ _ _ N). rewrite ptrs_app in Nk.
  pose proof (d_seg _ _ D) as G. apply seg_app in G as [G1 G2].
  assert (Dis : forall p, In p (ptrs n1) -> In p (ptrs n2) -> False).
  { intros p A1 A2. apply in_split in A1 as [x [y X]]. rewrite X in ND. rewrite <- app_assoc in ND. cbn [app] in ND. apply NoDup_remove_2 in ND. apply ND. rewrite app_assoc. apply in_or_app. auto. }
  split; cbn [withLen withLast withFirst withMem mem fresh first last len]; auto.
  - apply seg_app. split.
    + cbn [ptrs map fst hdor]. eapply seg_end; [apply (NoDup_appl _ _ ND)|exact G1|]. intros p m J E. rewrite (Sp p m (in_or_app _ _ _ (or_introl J)) E).
      assert (X : eqO (hdor (ptrs n2) None) p = false).
      { apply eqO_false. intro V. destruct (ptrs n2) as [|q r] eqn:El; [discriminate|]. injection V as ->. eapply Dis; [exact J|left; reflexivity]. }
      rewrite X. reflexivity.
    + cbn [seg]. split; [exact Sk|]. eapply seg_start; [apply (NoDup_appr _ _ ND)|exact G2|]. intros p m J E. rewrite (Sp p m (in_or_app _ _ _ (or_intror J)) E).
      assert (X : eqO (lastor (ptrs n1) None) p = false).
      { apply eqO_false. intro W. apply lastor_in in W as [W|[_ W]]; [eapply Dis; eauto|discriminate]. }
      rewrite X. reflexivity.
  - rewrite ptrs_app. apply NoDup_mid; assumption.
  - pose proof (d_lt _ _ D) as L. rewrite ptrs_app in *. apply Forall_app in L as [L1 L2]. apply Forall_app. split; [exact L1|]. constructor; [exact (b_lt _ _ _ _ _ N)|exact L2].
  - rewrite (d_len _ _ D). rewrite !app_length. cbn [length]. lia.
  - pose proof (d_sorted _ _ D) as So. rewrite ivs_app in *. apply sorted_app in So as [S1 [S2 S3]]. cbn [ivs map snd]. fold (ivs n2). apply sorted_app.
    split; [exact S1|]. split; [constructor; assumption|]. rewrite Forall_forall in *. intros x J. constructor; auto.
Qed.

Lemma upd_some s p f m : mem s p = Some m -> update s p f = Some (withMem s (fun q => if Nat.eqb q p then Some (f m) else mem s q)).
Proof. intro E. unfold update. rewrite E. reflexivity. Qed.

Lemma overlap_before (x : bool) (y : bool) m n : before (address m, size m) (address n, size n) -> 0 < size m -> x = false ->
  overlaps x m n = false /\ overlaps x n m = false /\ address m < address n.
Proof.
  unfold before, overlaps, cap. cbn [fst snd]. intros B P ->. destruct (Z.eqb_spec (address m) (address n)); [lia|]. destruct (Z.eqb_spec (address n) (address m)); [lia|].
  destruct (Z.ltb_spec (address m) (address n)); [|lia]. destruct (Z.ltb_spec (address n) (address m)); [lia|]. repeat split; try lia; apply Z.ltb_ge; lia.
Qed.

Lemma seg_at st pv l1 p a z l2 nx : seg st pv (l1 ++ (p, (a, z)) :: l2) nx -> st p = Some (MB a z (hdor (ptrs l2) nx) (lastor (ptrs l1) pv)).
Proof. intro H. apply seg_app in H as [_ [H _]]. exact H. Qed.

Lemma split_last (l : list block) : l <> [] -> exists l' p a z, l = l' ++ [(p, (a, z))].
Proof. intro H. destruct (@exists_last block l H) as [l' [[p [a z]] E]]. eauto. Qed.

Definition fits (s s' : bfc) (ns' : list block) : Prop := Dll s' ns' /\ same s s' /\ fresh s' = fresh s.

Lemma insertLoop_dll : forall m2 fuel s m1 pb ab zb n2 k a z,
  let n1 := m1 ++ (pb, (ab, zb)) :: m2 in
  Dll s (n1 ++ n2) -> newB s (n1 ++ n2) k a z -> 0 < z -> Forall (fun x => 0 < snd x) (ivs (n1 ++ n2)) ->
  Forall (fun x => before x (a, z)) (ivs n1) -> Forall (before (a, z)) (ivs n2) -> n2 <> [] -> (length m2 < fuel)%nat ->
  exists s', insertLoop fuel s (Some pb) k = Some s' /\ fits s s' (n1 ++ (k, (a, z)) :: n2).
Proof.
  induction m2 as [|[pm [am zm]] m2 IH]; intros fuel s m1 pb ab zb n2 k a z n1 D N Hz P B1 B2 Nn Hf; (destruct fuel as [|fuel]; [lia|]).
  - (* the block before the gap *)
    destruct n2 as [|[q [aq zq]] n3]; [congruence|]. clear Nn.
    assert (Eb : mem s pb = Some (MB ab zb (Some q) (lastor (ptrs m1) None))).
    { pose proof (d_seg _ _ D) as G. unfold n1 in G. rewrite <- app_assoc in G. cbn [app] in G. apply seg_at in G. exact G. }
    assert (Eq : exists mq, mem s q = Some mq /\ address mq = aq).
    { pose proof (d_seg _ _ D) as G. apply seg_at in G. eexists. split; [exact G|reflexivity]. }
    destruct Eq as [mq [Eq Aq]]. assert (Ek := b_mem _ _ _ _ _ N).
    assert (Nbk : pb <> k).
    { intros ->. apply (b_out _ _ _ _ _ N). unfold n1. rewrite !ptrs_app. apply in_or_app. left. apply in_or_app. right. left. reflexivity. }
    assert (Nqk : q <> k).
    { intros ->. apply (b_out _ _ _ _ _ N). rewrite !ptrs_app. apply in_or_app. right. left. reflexivity. }
    assert (Nbq : pb <> q).
    { intros ->. pose proof (d_nodup _ _ D) as ND. unfold n1 in ND. rewrite <- app_assoc, ptrs_app in ND. cbn [ptrs map fst app] in ND. apply NoDup_remove_2 in ND. apply ND. apply in_or_app. right. left. reflexivity. }
    assert (Pb : 0 < zb /\ before (ab, zb) (a, z)).
    { split.
      - rewrite Forall_forall in P. apply (P (ab, zb)). unfold n1. rewrite !ivs_app. apply in_or_app. left. apply in_or_app. right. left. reflexivity.
      - rewrite Forall_forall in B1. apply B1. unfold n1. rewrite ivs_app. apply in_or_app. right. left. reflexivity. }
    assert (Bq : a + z <= aq).
    { inversion B2 as [|? ? B3 _]; subst. exact B3. }
    cbn [insertLoop]. unfold deref. rewrite Eb, Ek. cbn [bind].
    destruct (overlap_before (Nat.eqb pb k) true (MB ab zb (Some q) (lastor (ptrs m1) None)) (MB a z None None)) as [O1 [_ O2]]; cbn [address size]; try tauto.
    { apply Nat.eqb_neq. exact Nbk. }
    cbn [address] in O2. rewrite O1. cbn [address size next negb]. rewrite (proj2 (Z.ltb_lt ab a) O2). cbn [andb].
    cbn [derefO bind]. rewrite Eq. cbn [bind]. unfold cap at 1. cbn [address size]. rewrite (proj2 (Z.leb_le _ _)) by lia.
    rewrite (upd_some _ _ _ _ Eb). cbn [bind].
    rewrite (upd_some _ k _ (MB a z None None)) by (cbn [withMem mem]; rewrite (proj2 (Nat.eqb_neq k pb)) by congruence; exact Ek). cbn [bind].
    rewrite (upd_some _ k _ (MB a z (Some q) None)) by (cbn [withMem mem]; rewrite Nat.eqb_refl; reflexivity). cbn [bind updateO].
    rewrite (upd_some _ q _ mq) by (cbn [withMem mem]; rewrite (proj2 (Nat.eqb_neq q k)) by exact Nqk; rewrite (proj2 (Nat.eqb_neq q pb)) by congruence; exact Eq). cbn [bind].
    eexists. split; [reflexivity|]. split; [|repeat split].
    match goal with |- Dll ?s' _ => change (Dll (withLen (withLast (withFirst (withMem s (mem s')) (first s)) (last s)) (len s + 1)) (n1 ++ (k, (a, z)) :: (q, (aq, zq)) :: n3)) end.
    assert (Lp : lastor (ptrs n1) None = Some pb) by (unfold n1; rewrite ptrs_app, lastor_app; reflexivity).
    apply dll_insert_frame; auto.
    + cbn [withLen withMem mem]. rewrite (proj2 (Nat.eqb_neq k q)) by congruence. rewrite Nat.eqb_refl. rewrite Lp. reflexivity.
    + intros p m J E. cbn [withLen withMem mem]. rewrite Lp. cbn [ptrs map fst hdor eqO]. rewrite (Nat.eqb_sym pb p), (Nat.eqb_sym q p).
      destruct (Nat.eqb_spec p q) as [->|X1].
      { rewrite (proj2 (Nat.eqb_neq q pb)) by congruence. rewrite Eq in E. injection E as <-. reflexivity. }
      rewrite (proj2 (Nat.eqb_neq p k)) by (intros ->; apply (b_out _ _ _ _ _ N); exact J).
      destruct (Nat.eqb_spec p pb) as [->|X2].
      { rewrite Eb in E. injection E as <-. reflexivity. }
      rewrite E. destruct m; reflexivity.
    + rewrite (d_first _ _ D). unfold n1. rewrite !ptrs_app. destruct (ptrs m1); reflexivity.
    + rewrite (d_last _ _ D) by (unfold n1; destruct m1; discriminate). rewrite !ptrs_app, !lastor_app. reflexivity.
  - assert (Eb : mem s pb = Some (MB ab zb (Some pm) (lastor (ptrs m1) None))).
    { pose proof (d_seg _ _ D) as G. unfold n1 in G. rewrite <- app_assoc in G. cbn [app] in G. apply seg_at in G. exact G. }
    assert (Ek := b_mem _ _ _ _ _ N).
    assert (Nbk : pb <> k).
    { intros ->. apply (b_out _ _ _ _ _ N). unfold n1. rewrite !ptrs_app. apply in_or_app. left. apply in_or_app. right. left. reflexivity. }
    assert (Em : exists mm, mem s pm = Some mm /\ address mm = am).
    { pose proof (d_seg _ _ D) as G. unfold n1 in G. change (m1 ++ (pb, (ab, zb)) :: (pm, (am, zm)) :: m2) with (m1 ++ [(pb, (ab, zb))] ++ (pm, (am, zm)) :: m2) in G.
      rewrite app_assoc in G. rewrite <- app_assoc in G. cbn [app] in G. apply seg_at in G. eexists. split; [exact G|reflexivity]. }
    destruct Em as [mm [Em Am]].
    assert (Pb : 0 < zb /\ before (ab, zb) (a, z)).
    { split.
      - rewrite Forall_forall in P. apply (P (ab, zb)). unfold n1. rewrite !ivs_app. apply in_or_app. left. apply in_or_app. right. left. reflexivity.
      - rewrite Forall_forall in B1. apply B1. unfold n1. rewrite ivs_app. apply in_or_app. right. left. reflexivity. }
    assert (Bm : 0 < zm /\ am + zm <= a).
    { split.
      - rewrite Forall_forall in P. apply (P (am, zm)). unfold n1. rewrite !ivs_app. apply in_or_app. left. apply in_or_app. right. right. left. reflexivity.
      - rewrite Forall_forall in B1. apply (B1 (am, zm)). unfold n1. rewrite ivs_app. apply in_or_app. right. right. left. reflexivity. }
    cbn [insertLoop]. unfold deref. rewrite Eb, Ek. cbn [bind].
    destruct (overlap_before (Nat.eqb pb k) true (MB ab zb (Some pm) (lastor (ptrs m1) None)) (MB a z None None)) as [O1 [_ O2]]; cbn [address size]; try tauto.
    { apply Nat.eqb_neq. exact Nbk. }
    cbn [address] in O2. rewrite O1. cbn [address size next negb]. rewrite (proj2 (Z.ltb_lt ab a) O2). cbn [andb].
    cbn [derefO bind]. rewrite Em. cbn [bind]. unfold cap at 1. cbn [address size]. rewrite (proj2 (Z.leb_gt _ _)) by lia.
    assert (En1 : n1 = (m1 ++ [(pb, (ab, zb))]) ++ (pm, (am, zm)) :: m2) by (unfold n1; rewrite <- app_assoc; reflexivity).
    rewrite En1 in *. apply (IH fuel s (m1 ++ [(pb, (ab, zb))]) pm am zm n2 k a z D N Hz P B1 B2 Nn). cbn [length] in Hf. lia.
Qed.

Lemma insert_dll s ns k a z : Dll s ns -> newB s ns k a z -> 0 < z -> Forall (fun x => 0 < snd x) (ivs ns) -> Forall (disjoint (a, z)) (ivs ns) ->
  exists s' n1 n2, ns = n1 ++ n2 /\ insert s k = Some s' /\ fits s s' (n1 ++ (k, (a, z)) :: n2).
Proof.
  intros D N Hz P Di. destruct (sorted_place a z ns Hz (d_sorted _ _ D) P Di) as [n1 [n2 [-> [B1 B2]]]].
  assert (Ek := b_mem _ _ _ _ _ N). assert (Hlen := dll_length _ _ D). rewrite app_length in Hlen.
  assert (Df := d_first _ _ D). assert (Dl := d_last _ _ D).
  enough (exists s', insert s k = Some s' /\ fits s s' (n1 ++ (k, (a, z)) :: n2)) as [s' [A B]] by eauto 6.
  destruct n1 as [|[p1 [a1 z1]] m1].
  - destruct n2 as [|[q [aq zq]] n3].
    + (* empty *)
      unfold insert. rewrite Df. cbn [app ptrs map hdor]. eexists. split; [reflexivity|]. split; [|repeat split].
      change (Dll (withLen (withLast (withFirst (withMem s (mem s)) (Some k)) (Some k)) (len s + 1)) ([] ++ (k, (a, z)) :: [])).
      apply dll_insert_frame; auto. intros p m [].
    + (* at the front *)
      cbn [app] in *. assert (Eq : mem s q = Some (MB aq zq (hdor (ptrs n3) None) None)) by (destruct (d_seg _ _ D) as [G _]; exact G).
      inversion B2 as [|? ? B3 B4]; subst. unfold before in B3. cbn [fst snd] in B3. inversion P as [|? ? P1 P2]; subst. cbn [snd] in P1.
      assert (Nqk : q <> k) by (intros ->; apply (b_out _ _ _ _ _ N); left; reflexivity).
      assert (exists pl ml, last s = Some pl /\ mem s pl = Some ml /\ a < address ml) as [pl [ml [El [Eml Al]]]].
      { destruct (split_last (@cons block (q, (aq, zq)) n3) ltac:(discriminate)) as [l' [pl [al [zl E]]]]. exists pl. eexists.
        rewrite Dl by discriminate. rewrite E. rewrite ptrs_app, lastor_app. split; [reflexivity|].
        pose proof (d_seg _ _ D) as G. rewrite E in G. apply seg_at in G. split; [exact G|]. cbn [address].
        rewrite Forall_forall in B2. assert (J : In (al, zl) (ivs (@cons block (q, (aq, zq)) n3))) by (rewrite E, ivs_app; apply in_or_app; right; left; reflexivity).
        specialize (B2 _ J). unfold before in B2. cbn [fst snd] in B2. lia. }
      unfold insert. rewrite Df. cbn [ptrs map fst hdor]. unfold deref. rewrite Ek. cbn [bind]. rewrite El. cbn [derefO bind]. rewrite Eml. cbn [bind]. rewrite Eq. cbn [bind address].
      rewrite (proj2 (Z.leb_gt _ _)) by lia. rewrite (proj2 (Z.ltb_lt a aq)) by lia.
      destruct (overlap_before (Nat.eqb k q) true (MB a z None None) (MB aq zq (hdor (ptrs n3) None) None)) as [O1 _]; cbn [address size]; auto.
      { apply Nat.eqb_neq. congruence. }
      rewrite O1. rewrite (upd_some _ _ _ _ Eq). cbn [bind].
      rewrite (upd_some _ k _ (MB a z None None)) by (cbn [withMem mem]; rewrite (proj2 (Nat.eqb_neq k q)) by congruence; exact Ek). cbn [bind].
      eexists. split; [reflexivity|]. split; [|repeat split].
      match goal with |- Dll ?s' _ => change (Dll (withLen (withLast (withFirst (withMem s (mem s')) (Some k)) (Some pl)) (len s + 1)) ([] ++ (k, (a, z)) :: (q, (aq, zq)) :: n3)) || idtac end.
      assert (X : forall st', Dll (withLen (withLast (withFirst (withMem s st') (Some k)) (last s)) (len s + 1)) ([] ++ (k, (a, z)) :: (q, (aq, zq)) :: n3) ->
                  Dll (withLen (withFirst (withMem s st') (Some k)) (len s + 1)) ((k, (a, z)) :: (q, (aq, zq)) :: n3)) by (intros st' X; exact X).
      apply X. apply dll_insert_frame; auto.
      * cbn [withLen withMem mem]. rewrite Nat.eqb_refl. reflexivity.
      * intros p m J E. cbn [withMem mem ptrs map lastor eqO fst hdor]. rewrite (Nat.eqb_sym q p).
        rewrite (proj2 (Nat.eqb_neq p k)) by (intros ->; apply (b_out _ _ _ _ _ N); exact J).
        destruct (Nat.eqb_spec p q) as [->|X2]; [rewrite Eq in E; injection E as <-; reflexivity|]. rewrite E. destruct m; reflexivity.
      * rewrite Dl by discriminate. reflexivity.
  - destruct n2 as [|x2 n3].
    + (* at the end *)
      rewrite app_nil_r in *. destruct (split_last (@cons block (p1, (a1, z1)) m1) ltac:(discriminate)) as [l' [pl [al [zl E]]]]. rewrite E in *.
      assert (El : last s = Some pl) by (rewrite Dl by (destruct l'; discriminate); rewrite ptrs_app, lastor_app; reflexivity).
      assert (Eml : mem s pl = Some (MB al zl None (lastor (ptrs l') None))) by (pose proof (d_seg _ _ D) as G; apply seg_at in G; exact G).
      assert (Bl : before (al, zl) (a, z) /\ 0 < zl).
      { assert (J : In (al, zl) (ivs (l' ++ [(pl, (al, zl))]))) by (rewrite ivs_app; apply in_or_app; right; left; reflexivity).
        split; [rewrite Forall_forall in B1; apply B1, J|]. rewrite Forall_forall in P. apply (P _ J). }
      assert (Npk : pl <> k).
      { intros ->. apply (b_out _ _ _ _ _ N). rewrite ptrs_app. apply in_or_app. right. left. reflexivity. }
      assert (Sf : exists pf mf, first s = Some pf /\ mem s pf = Some mf).
      { pose proof (d_seg _ _ D) as G. rewrite Df. rewrite <- E in G |- *. cbn [ptrs map fst hdor]. cbn [seg] in G. destruct G as [G _]. eauto. }
      destruct Sf as [pf [mf [Ef Emf]]].
      destruct (overlap_before (Nat.eqb pl k) true (MB al zl None (lastor (ptrs l') None)) (MB a z None None)) as [_ [O1 O2]]; cbn [address size]; try tauto.
      { apply Nat.eqb_neq. exact Npk. }
      cbn [address] in O2.
      unfold insert. rewrite Ef. unfold deref. rewrite Ek. cbn [bind]. rewrite El. cbn [derefO bind]. rewrite Eml. cbn [bind]. rewrite Emf. cbn [bind address eqO].
      rewrite (proj2 (Z.leb_le al a)) by lia. rewrite O1. cbn [updateO bind].
      rewrite (upd_some _ _ _ _ Eml). cbn [bind].
      rewrite (upd_some _ k _ (MB a z None None)) by (cbn [withMem mem]; rewrite (proj2 (Nat.eqb_neq k pl)) by congruence; exact Ek). cbn [bind].
      rewrite (upd_some _ k _ (MB a z None (Some pl))) by (cbn [withMem mem]; rewrite Nat.eqb_refl; reflexivity). cbn [bind].
      eexists. split; [reflexivity|]. split; [|repeat split].
      assert (X : forall st' ns', Dll (withLen (withLast (withFirst (withMem s st') (first s)) (Some k)) (len s + 1)) ns' ->
                  Dll (withLen (withLast (withMem s st') (Some k)) (len s + 1)) ns') by (intros st' ns' X; exact X).
      apply X. rewrite <- (app_nil_r (l' ++ [(pl, (al, zl))])) in D, N.
      apply (dll_insert_frame s (l' ++ [(pl, (al, zl))]) [] k a z); auto.
      * cbn [withMem mem]. rewrite Nat.eqb_refl. rewrite ptrs_app, lastor_app. reflexivity.
      * intros p m J Ep. rewrite ptrs_app, lastor_app. cbn [withMem mem ptrs map fst lastor eqO hdor]. rewrite (Nat.eqb_sym pl p).
        rewrite (proj2 (Nat.eqb_neq p k)) by (intros ->; apply (b_out _ _ _ _ _ N); exact J).
        destruct (Nat.eqb_spec p pl) as [->|X2]; [rewrite Eml in Ep; injection Ep as <-; reflexivity|]. rewrite Ep. destruct m; reflexivity.
      * rewrite Df. rewrite !ptrs_app. destruct (ptrs l'); reflexivity.
      * rewrite !ptrs_app, !lastor_app. reflexivity.
    + (* in between *)
      assert (E1 : mem s p1 = Some (MB a1 z1 (hdor (ptrs (m1 ++ x2 :: n3)) None) None)) by (destruct (d_seg _ _ D) as [G _]; exact G).
      assert (exists pl ml, last s = Some pl /\ mem s pl = Some ml /\ a < address ml) as [pl [ml [El [Eml Al]]]].
      { destruct (split_last (x2 :: n3) ltac:(discriminate)) as [l' [pl [al [zl E]]]]. exists pl. eexists.
        rewrite Dl by discriminate. rewrite E. rewrite !ptrs_app, !lastor_app. split; [reflexivity|].
        pose proof (d_seg _ _ D) as G. rewrite E in G. rewrite app_assoc in G. apply seg_at in G. split; [exact G|]. cbn [address].
        rewrite Forall_forall in B2. assert (J : In (al, zl) (ivs (x2 :: n3))) by (rewrite E, ivs_app; apply in_or_app; right; left; reflexivity).
        specialize (B2 _ J). unfold before in B2. cbn [fst snd] in B2. lia. }
      assert (Pb : a1 < a).
      { inversion B1 as [|? ? B3 _]; subst. inversion P as [|? ? P1 _]; subst. unfold before in B3. cbn [fst snd] in *. lia. }
      unfold insert. rewrite Df. cbn [app ptrs map fst hdor]. unfold deref. rewrite Ek. cbn [bind]. rewrite El. cbn [derefO bind]. rewrite Eml. cbn [bind]. rewrite E1. cbn [bind address].
      rewrite (proj2 (Z.leb_gt _ _)) by lia. rewrite (proj2 (Z.ltb_ge a a1)) by lia.
      apply (insertLoop_dll m1 (S (fresh s)) s [] p1 a1 z1 (x2 :: n3) k a z); auto; [discriminate|]. apply Nat.lt_succ_r. refine (Nat.le_trans _ _ _ _ Hlen). cbn [length]. unfold block in *. lia.
Qed.

(** ** Removing *)
Lemma remove_dll s m1 p a z m2 : Dll s (m1 ++ (p, (a, z)) :: m2) ->
  exists s', remove s p = Some s' /\ fits s s' (m1 ++ m2) /\ mem s' p = Some (MB a z None None).
Proof.
  intro D. assert (Ep := seg_at _ _ _ _ _ _ _ _ (d_seg _ _ D)).
  pose proof (d_nodup _ _ D) as ND. rewrite ptrs_app in ND. cbn [ptrs map fst] in ND. fold (ptrs m2) in ND.
  pose proof (d_seg _ _ D) as G. apply seg_app in G as [G1 G2]. cbn [seg] in G2. destruct G2 as [_ G2].
  assert (Np := NoDup_remove_2 _ _ _ ND). apply NoDup_remove_1 in ND.
  assert (Dis : forall q, In q (ptrs m1) -> In q (ptrs m2) -> False).
  { intros q A1 A2. apply in_split in A1 as [x [y X]]. rewrite X in ND. rewrite <- app_assoc in ND. cbn [app] in ND. apply NoDup_remove_2 in ND. apply ND. rewrite app_assoc. apply in_or_app. auto. }
  assert (Df := d_first _ _ D). assert (Dl := d_last _ _ D ltac:(destruct m1; discriminate)). rewrite ptrs_app in Df, Dl. rewrite lastor_app in Dl. cbn [ptrs map fst lastor] in Df, Dl. fold (ptrs m2) in Df, Dl.
  (* what the whole comes down to *)
  assert (K : forall st' fi la, st' p = Some (MB a z None None) ->
     (forall q m, In q (ptrs m1 ++ ptrs m2) -> mem s q = Some m ->
        st' q = Some (MB (address m) (size m) (if eqO (lastor (ptrs m1) None) q then hdor (ptrs m2) None else next m)
                                              (if eqO (hdor (ptrs m2) None) q then lastor (ptrs m1) None else prev m))) ->
     fi = hdor (ptrs (m1 ++ m2)) None -> (m1 ++ m2 <> [] -> la = lastor (ptrs (m1 ++ m2)) None) ->
     fits s (withLen (withLast (withFirst (withMem s st') fi) la) (len s - 1)) (m1 ++ m2)).
  { intros st' fi la Sp Sq -> Hla. split; [|repeat split]. split; cbn [withLen withLast withFirst withMem mem fresh first last len]; auto.
    - apply seg_app. split.
      + eapply seg_end; [apply (NoDup_appl _ _ ND)|exact G1|]. intros q m J E. rewrite (Sq q m (in_or_app _ _ _ (or_introl J)) E).
        assert (X : eqO (hdor (ptrs m2) None) q = false).
        { apply eqO_false. intro V. destruct (ptrs m2) as [|q' r] eqn:El; [discriminate|]. injection V as ->. eapply Dis; [exact J|left; reflexivity]. }
        rewrite X. reflexivity.
      + eapply seg_start; [apply (NoDup_appr _ _ ND)|exact G2|]. intros q m J E. rewrite (Sq q m (in_or_app _ _ _ (or_intror J)) E).
        assert (X : eqO (lastor (ptrs m1) None) q = false).
        { apply eqO_false. intro W. apply lastor_in in W as [W|[_ W]]; [eapply Dis; eauto|discriminate]. }
        rewrite X. reflexivity.
    - rewrite ptrs_app. exact ND.
    - pose proof (d_lt _ _ D) as L. rewrite ptrs_app in *. apply Forall_app in L as [L1 L2]. apply Forall_app. split; [exact L1|]. inversion L2; assumption.
    - rewrite (d_len _ _ D). rewrite !app_length. cbn [length]. lia.
    - pose proof (d_sorted _ _ D) as So. rewrite ivs_app in *. apply sorted_app in So as [S1 [S2 S3]]. cbn [ivs map snd] in S2, S3. fold (ivs m2) in S2, S3. apply sorted_app.
      split; [exact S1|]. split; [inversion S2; assumption|]. rewrite Forall_forall in *. intros x J. specialize (S3 x J). inversion S3; assumption. }
  unfold remove, deref. rewrite Ep. cbn [bind prev next].
  assert (Hf : eqO (first s) p = match m1 with [] => true | _ => false end).
  { rewrite Df. destruct m1 as [|[p1 x1] m1']; cbn [ptrs map fst app hdor eqO]; [apply Nat.eqb_refl|]. apply Nat.eqb_neq. intros ->. apply Np. left. reflexivity. }
  assert (Hl : eqO (last s) p = match m2 with [] => true | _ => false end).
  { rewrite Dl. destruct m2 as [|x2 m2']; [cbn [ptrs map lastor eqO]; apply Nat.eqb_refl|]. apply eqO_false. intro W. apply lastor_in in W as [W|[W _]]; [apply Np, in_or_app; right; exact W|discriminate]. }
  assert (Pn1 : forall pl, lastor (ptrs m1) None = Some pl -> In pl (ptrs m1) /\ exists m, mem s pl = Some m).
  { intros pl E. assert (J : In pl (ptrs m1)) by (apply lastor_in in E as [W|[_ W]]; [exact W|discriminate]). split; [exact J|].
    destruct (seg_some _ _ _ _ _ G1 J) as [m X]. eauto. }
  assert (Pn2 : forall q, hdor (ptrs m2) None = Some q -> In q (ptrs m2) /\ exists m, mem s q = Some m).
  { intros q E. assert (J : In q (ptrs m2)) by (destruct (ptrs m2); [discriminate|]; injection E as ->; left; reflexivity). split; [exact J|].
    destruct (seg_some _ _ _ _ _ G2 J) as [m X]. eauto. }
  rewrite Hf. destruct m1 as [|x1 m1'].
  - cbn [bind]. cbn [ptrs map app] in *. cbn [withFirst mem]. rewrite Ep. cbn [bind last withFirst next prev]. rewrite Hl. destruct m2 as [|[q x2] m2'].
    + cbn [bind ptrs map hdor]. rewrite (upd_some _ p _ (MB a z None None)) by exact Ep. cbn [bind]. rewrite (upd_some _ p _ (MB a z None None)) by (cbn [withMem mem]; rewrite Nat.eqb_refl; reflexivity). cbn [bind].
      eexists. split; [reflexivity|]. split; [|cbn [withLen withMem mem]; rewrite Nat.eqb_refl; reflexivity].
      match goal with |- fits s ?s' _ => change (fits s (withLen (withLast (withFirst (withMem s (mem s')) None) None) (len s - 1)) []) end.
      apply (K _ None None); auto; [cbn [withLen withMem mem]; rewrite Nat.eqb_refl; reflexivity|intros q m []].
    + destruct (Pn2 q eq_refl) as [Jq [mq Eq]]. assert (Nqp : q <> p) by (intros ->; apply Np; exact Jq).
      cbn [ptrs map fst hdor updateO bind]. rewrite (upd_some _ q _ mq) by exact Eq. cbn [bind].
      rewrite (upd_some _ p _ (MB a z (Some q) None)) by (cbn [withMem mem withFirst]; rewrite (proj2 (Nat.eqb_neq p q)) by congruence; exact Ep). cbn [bind].
      rewrite (upd_some _ p _ (MB a z None None)) by (cbn [withMem mem]; rewrite Nat.eqb_refl; reflexivity). cbn [bind].
      eexists. split; [reflexivity|]. split; [|cbn [withLen withMem mem]; rewrite Nat.eqb_refl; reflexivity].
      match goal with |- fits s ?s' _ => change (fits s (withLen (withLast (withFirst (withMem s (mem s')) (Some q)) (last s)) (len s - 1)) ((q, x2) :: m2')) end.
      apply (K _ (Some q) (last s)); [cbn [withLen withMem mem]; rewrite Nat.eqb_refl; reflexivity| |reflexivity|].
      * intros q' m J E. cbn [withLen withMem mem withFirst lastor eqO ptrs map fst hdor]. rewrite (Nat.eqb_sym q q').
        rewrite (proj2 (Nat.eqb_neq q' p)) by (intros ->; apply Np; exact J). destruct (Nat.eqb_spec q' q) as [->|X2]; [rewrite Eq in E; injection E as <-; reflexivity|]. rewrite E. destruct m; reflexivity.
      * intros _. rewrite Dl. reflexivity.
  - destruct (split_last (x1 :: m1') ltac:(discriminate)) as [l' [pl [al [zl E1]]]].
    assert (Lp : lastor (ptrs (x1 :: m1')) None = Some pl) by (rewrite E1, ptrs_app, lastor_app; reflexivity).
    destruct (Pn1 pl Lp) as [Jl [ml Eml]]. assert (Nlp : pl <> p) by (intros ->; apply Np, in_or_app; left; exact Jl).
    rewrite Lp. cbn [updateO bind]. rewrite (upd_some _ pl _ ml Eml). cbn [bind].
    replace (mem (withMem s (fun q => if Nat.eqb q pl then Some (setNext (hdor (ptrs m2) None) ml) else mem s q)) p) with (mem s p)
      by (cbn [withMem mem]; rewrite (proj2 (Nat.eqb_neq p pl)) by congruence; reflexivity).
    rewrite Ep. cbn [bind last withMem next prev]. rewrite Hl. rewrite Lp. destruct m2 as [|[q x2] m2'].
    + cbn [bind ptrs map hdor].
      rewrite (upd_some _ p _ (MB a z None (Some pl))) by (cbn [withMem withLast mem]; rewrite (proj2 (Nat.eqb_neq p pl)) by congruence; rewrite Ep, Lp; reflexivity). cbn [bind].
      rewrite (upd_some _ p _ (MB a z None (Some pl))) by (cbn [withMem mem]; rewrite Nat.eqb_refl; reflexivity). cbn [bind].
      eexists. split; [reflexivity|]. split; [|cbn [withLen withMem mem]; rewrite Nat.eqb_refl; reflexivity].
      match goal with |- fits s ?s' _ => change (fits s (withLen (withLast (withFirst (withMem s (mem s')) (first s)) (Some pl)) (len s - 1)) ((x1 :: m1') ++ [])) end.
      apply K; [cbn [withLen withMem mem]; rewrite Nat.eqb_refl; reflexivity| |rewrite Df; reflexivity|].
      * intros q' m J E. cbn [withLen withMem mem withFirst withLast]. rewrite Lp. cbn [eqO ptrs map fst hdor]. rewrite (Nat.eqb_sym pl q').
        rewrite (proj2 (Nat.eqb_neq q' p)) by (intros ->; apply Np; exact J). destruct (Nat.eqb_spec q' pl) as [->|X2]; [rewrite Eml in E; injection E as <-; reflexivity|]. rewrite E. destruct m; reflexivity.
      * intros _. rewrite app_nil_r. symmetry. exact Lp.
    + destruct (Pn2 q eq_refl) as [Jq [mq Eq]]. assert (Nqp : q <> p) by (intros ->; apply Np, in_or_app; right; exact Jq).
      assert (Nql : q <> pl) by (intros ->; eapply Dis; eauto).
      cbn [ptrs map fst hdor updateO bind].
      rewrite (upd_some _ q _ mq) by (cbn [withMem mem]; rewrite (proj2 (Nat.eqb_neq q pl)) by exact Nql; exact Eq). cbn [bind].
      rewrite (upd_some _ p _ (MB a z (Some q) (Some pl))) by (cbn [withMem mem withFirst]; rewrite (proj2 (Nat.eqb_neq p q)) by congruence; rewrite (proj2 (Nat.eqb_neq p pl)) by congruence; rewrite Ep, Lp; reflexivity). cbn [bind].
      rewrite (upd_some _ p _ (MB a z None (Some pl))) by (cbn [withMem mem]; rewrite Nat.eqb_refl; reflexivity). cbn [bind].
      eexists. split; [reflexivity|]. split; [|cbn [withLen withMem mem]; rewrite Nat.eqb_refl; reflexivity].
      match goal with |- fits s ?s' _ => change (fits s (withLen (withLast (withFirst (withMem s (mem s')) (first s)) (last s)) (len s - 1)) ((x1 :: m1') ++ (q, x2) :: m2')) end.
      apply K; [cbn [withLen withMem mem]; rewrite Nat.eqb_refl; reflexivity| |rewrite Df; reflexivity|].
      * intros q' m J E. cbn [withLen withMem mem withFirst withLast]. rewrite Lp. cbn [eqO ptrs map fst hdor]. rewrite (Nat.eqb_sym pl q'), (Nat.eqb_sym q q').
        rewrite (proj2 (Nat.eqb_neq q' p)) by (intros ->; apply Np; exact J).
        destruct (Nat.eqb_spec q' q) as [->|X1]; [rewrite (proj2 (Nat.eqb_neq q pl)) by congruence; rewrite Eq in E; injection E as <-; reflexivity|].
        destruct (Nat.eqb_spec q' pl) as [->|X2]; [rewrite Eml in E; injection E as <-; reflexivity|]. rewrite E. destruct m; reflexivity.
      * intros _. rewrite Dl. rewrite ptrs_app, lastor_app. reflexivity.
Qed.

(** ** Searching *)
Lemma bestFitLoop_dll s z : forall ns fuel pv, (length ns < fuel)%nat -> seg (mem s) pv ns None ->
  (exists l1 p a zb l2, ns = l1 ++ (p, (a, zb)) :: l2 /\ Forall (fun x => snd x < z) (ivs l1) /\ z <= zb /\ bestFitLoop fuel s (hdor (ptrs ns) None) z = Some (Some p)) \/
  (Forall (fun x => snd x < z) (ivs ns) /\ bestFitLoop fuel s (hdor (ptrs ns) None) z = Some None).
Proof.
  induction ns as [|[p [a zb]] ns IH]; intros fuel pv Hf H; (destruct fuel as [|fuel]; [lia|]).
  - right. split; [constructor|reflexivity].
  - cbn [length] in Hf. cbn [seg] in H. destruct H as [E H]. cbn [ptrs map fst hdor bestFitLoop]. unfold deref. rewrite E. cbn [bind size next]. destruct (Z.leb_spec z zb) as [L|L].
    + left. exists [], p, a, zb, ns. repeat split; auto; constructor.
    + destruct (IH fuel (Some p) ltac:(lia) H) as [[l1 [p' [a' [z' [l2 [-> [F [L' E']]]]]]]]|[F E']].
      * left. exists ((p, (a, zb)) :: l1), p', a', z', l2. repeat split; auto. cbn [ivs map snd]. constructor; auto.
      * right. split; [cbn [ivs map snd]; constructor; auto|exact E'].
Qed.
Lemma bestFit_dll s ns z : Dll s ns ->
  (exists l1 p a zb l2, ns = l1 ++ (p, (a, zb)) :: l2 /\ Forall (fun x => snd x < z) (ivs l1) /\ z <= zb /\ bestFit s z = Some (Some p)) \/
  (Forall (fun x => snd x < z) (ivs ns) /\ bestFit s z = Some None).
Proof.
  intro D. unfold bestFit. rewrite (d_first _ _ D). eapply bestFitLoop_dll; [|apply (d_seg _ _ D)]. pose proof (dll_length _ _ D). lia.
Qed.

Lemma sizes_app l l' : sizes (l ++ l') = sizes l + sizes l'.
Proof. induction l as [|x l IH]; [reflexivity|]. cbn [app sizes fold_right] in *. unfold sizes in *. lia. Qed.
Lemma sizes_cons x l : sizes (x :: l) = snd x + sizes l. Proof. reflexivity. Qed.
Lemma ivs_cons p x (l : list block) : ivs ((p, x) :: l) = x :: ivs l. Proof. reflexivity. Qed.

(** ** Splitting *)
Lemma seg_resize st st' pv l1 p a z z' l2 nx : NoDup (ptrs (l1 ++ (p, (a, z)) :: l2)) -> seg st pv (l1 ++ (p, (a, z)) :: l2) nx ->
  (forall q, q <> p -> In q (ptrs (l1 ++ (p, (a, z)) :: l2)) -> st' q = st q) -> st' p = Some (MB a z' (hdor (ptrs l2) nx) (lastor (ptrs l1) pv)) ->
  seg st' pv (l1 ++ (p, (a, z')) :: l2) nx.
Proof.
  intros ND H F Ep. rewrite ptrs_app in *. assert (Np := NoDup_remove_2 _ _ _ ND). apply seg_app in H as [H1 H2]. apply seg_app. cbn [seg] in *. destruct H2 as [_ H2]. split.
  - eapply seg_ext; [|exact H1]. intros q J. apply F; [intros ->; apply Np, in_or_app; left; exact J|apply in_or_app; left; exact J].
  - split; [exact Ep|]. eapply seg_ext; [|exact H2]. intros q J. apply F; [intros ->; apply Np, in_or_app; right; exact J|apply in_or_app; right; right; exact J].
Qed.

Lemma splitIf_dll s l1 p a z0 l2 z us : Dll s (l1 ++ (p, (a, z0)) :: l2) -> okIv (blockSize s) (reserved s) (ivs (l1 ++ (p, (a, z0)) :: l2)) us ->
  0 < z -> z <= z0 -> (blockSize s <= z0 - z -> (a + z) mod blockSize s = 0) ->
  exists s' m1 m2, splitIf s p z = Some s' /\ Dll s' (m1 ++ (p, (a, z)) :: m2) /\ same s s' /\
    okIv (blockSize s) (reserved s) (ivs (m1 ++ (p, (a, z)) :: m2)) us /\ sizes (ivs (m1 ++ (p, (a, z)) :: m2)) = sizes (ivs (l1 ++ (p, (a, z0)) :: l2)).
Proof.
  intros D O Hz Hle Ha. assert (Ep := seg_at _ _ _ _ _ _ _ _ (d_seg _ _ D)). unfold splitIf, split, deref. rewrite Ep. cbn [bind size].
  destruct (Z.ltb_spec z z0) as [L|L].
  2:{ assert (z = z0) by lia. subst z0. exists s, l1, l2. split; [reflexivity|]. split; [exact D|]. split; [apply same_refl|]. split; [exact O|reflexivity]. }
  rewrite (proj2 (Z.leb_gt _ _)) by lia. rewrite (upd_some _ _ _ _ Ep). cbn [bind newMemblock fst snd address size].
  set (s1 := withMem s _).
  match goal with |- context [insert ?S ?K] => set (s2 := S) end.
  assert (Lt := d_lt _ _ D).
  assert (Nf : forall q, In q (ptrs (l1 ++ (p, (a, z0)) :: l2)) -> q <> fresh s).
  { intros q J ->. rewrite Forall_forall in Lt. specialize (Lt _ J). lia. }
  assert (Npf : p <> fresh s) by (apply Nf; rewrite ptrs_app; apply in_or_app; right; left; reflexivity).
  assert (Eptr : ptrs (l1 ++ (p, (a, z)) :: l2) = ptrs (l1 ++ (p, (a, z0)) :: l2)) by (rewrite !ptrs_app; reflexivity).
  assert (O2 : okIv (blockSize s) (reserved s) ((a + z, z0 - z) :: ivs (l1 ++ (p, (a, z)) :: l2)) us).
  { rewrite ivs_app in *. apply ok_split; auto. }
  assert (D2 : Dll s2 (l1 ++ (p, (a, z)) :: l2)).
  { split; unfold s2, s1; cbn [mem fresh first last len withMem].
    - eapply seg_resize; [apply (d_nodup _ _ D)|apply (d_seg _ _ D)| |].
      + intros q Nq J. cbn beta. rewrite (proj2 (Nat.eqb_neq q (fresh s))) by (apply Nf; exact J). rewrite (proj2 (Nat.eqb_neq q p)) by exact Nq. reflexivity.
      + cbn beta. rewrite (proj2 (Nat.eqb_neq p (fresh s))) by exact Npf. rewrite Nat.eqb_refl. reflexivity.
    - rewrite Eptr. apply (d_first _ _ D).
    - intros _. rewrite Eptr. apply (d_last _ _ D). destruct l1; discriminate.
    - rewrite Eptr. apply (d_nodup _ _ D).
    - rewrite Eptr. eapply Forall_impl; [|exact Lt]. intros q X. cbn beta in X. lia.
    - rewrite (d_len _ _ D). rewrite !app_length. reflexivity.
    - pose proof (d_sorted _ _ D) as So. rewrite ivs_app in *. cbn [ivs map snd] in *. fold (ivs l2) in *. apply sorted_app in So as [S1 [S2 S3]]. apply sorted_app. split; [exact S1|]. split.
      + inversion S2 as [|? ? A B]; subst. constructor; [exact A|]. eapply Forall_impl; [|exact B]. unfold before. cbn [fst snd]. lia.
      + eapply Forall_impl; [|exact S3]. cbn beta. intros x X. inversion X; subst. constructor; assumption. }
  assert (N2 : newB s2 (l1 ++ (p, (a, z)) :: l2) (fresh s) (a + z) (z0 - z)).
  { split; unfold s2, s1; cbn [mem fresh withMem].
    - rewrite Nat.eqb_refl. reflexivity.
    - lia.
    - rewrite Eptr. intro J. apply (Nf _ J). reflexivity. }
  assert (P2 := ok_pos _ _ _ _ O2). inversion P2 as [|? ? P3 P4]; subst. cbn [snd] in P3.
  pose proof (ok_pw O2) as W. cbn [app pairwise] in W. destruct W as [W _]. apply Forall_app in W as [W _].
  destruct (insert_dll s2 _ (fresh s) (a + z) (z0 - z) D2 N2 ltac:(lia) P4 W) as [s' [n1 [n2 [En [Ei [D' [Sa _]]]]]]].
  assert (Jp : In (p, (a, z)) (n1 ++ (fresh s, (a + z, z0 - z)) :: n2)).
  { assert (J : In (p, (a, z)) (n1 ++ n2)) by (rewrite <- En; apply in_or_app; right; left; reflexivity). apply in_app_or in J as [J|J]; apply in_or_app; [left|right; right]; exact J. }
  apply in_split in Jp as [m1 [m2 Em]]. exists s', m1, m2.
  assert (Pm : Permutation ((a + z, z0 - z) :: ivs (l1 ++ (p, (a, z)) :: l2)) (ivs (m1 ++ (p, (a, z)) :: m2))).
  { etransitivity; [|unfold block in *; rewrite <- Em; reflexivity]. unfold block in *. rewrite En. rewrite !ivs_app. cbn [ivs map snd]. apply Permutation_middle. }
  split; [exact Ei|]. split; [unfold block in *; rewrite <- Em; exact D'|]. split; [|split].
  - eapply same_trans; [|exact Sa]. repeat split.
  - eapply ok_perm; [exact Pm|exact O2].
  - assert (forall l l', Permutation l l' -> sizes l = sizes l') as Ps.
    { intros l l' X. unfold sizes. induction X; cbn [fold_right]; lia. }
    rewrite <- (Ps _ _ Pm). rewrite !ivs_app, !ivs_cons, sizes_cons, !sizes_app, !sizes_cons. cbn [snd]. lia.
Qed.

Definition CInv (s : bfc) : Prop := exists ns, Dll s ns /\ 0 < blockSize s /\ okIv (blockSize s) (reserved s) (ivs ns) (used s) /\ sizes (ivs ns) + sizes (used s) = reserved s.

Lemma take_dll s l1 p a zb l2 z : Dll s (l1 ++ (p, (a, zb)) :: l2) -> 0 < blockSize s -> okIv (blockSize s) (reserved s) (ivs (l1 ++ (p, (a, zb)) :: l2)) (used s) ->
  sizes (ivs (l1 ++ (p, (a, zb)) :: l2)) + sizes (used s) = reserved s -> 0 < z -> align s z <= zb ->
  exists s', take s p (align s z) z = Some (s', Address (a + start s)) /\ CInv s' /\
    start s' = start s /\ blockSize s' = blockSize s /\ reserved s' = reserved s /\ used s' = (a, z) :: used s.
Proof.
  intros D Hb O Sz Hz Hal. destruct (align_ok s z Hb Hz) as [A1 [A2 A3]].
  assert (Aa : a mod blockSize s = 0).
  { pose proof (ok_al O) as X. rewrite ivs_app in X. apply Forall_app in X as [_ X]. inversion X as [|? ? X1 _]; subst. apply X1. cbn [snd]. lia. }
  destruct (splitIf_dll s l1 p a zb l2 (align s z) (used s) D O ltac:(lia) Hal) as [s1 [m1 [m2 [E1 [D1 [Sa1 [O1 Z1]]]]]]].
  { intros _. rewrite Z.add_mod, Aa, A1 by lia. reflexivity. }
  assert (B1 : blockSize s1 = blockSize s) by apply Sa1. assert (R1 : reserved s1 = reserved s) by apply Sa1. assert (U1 : used s1 = used s) by apply Sa1.
  rewrite <- B1, <- R1 in O1.
  destruct (splitIf_dll s1 m1 p a (align s z) m2 z (used s) D1 O1 Hz ltac:(lia)) as [s2 [k1 [k2 [E2 [D2 [Sa2 [O2 Z2]]]]]]].
  { rewrite B1. lia. }
  destruct (remove_dll _ _ _ _ _ _ D2) as [s3 [E3 [[D3 [Sa3 _]] Ep]]].
  unfold take, splitOrRemove. rewrite E1. cbn [bind]. rewrite E2. cbn [bind]. rewrite E3. cbn [bind]. unfold deref. rewrite Ep. cbn [bind address].
  assert (Sa : same s s3) by (eapply same_trans; [exact Sa1|]; eapply same_trans; eassumption). destruct Sa as [S1 [S2 [S3 [S4 [S5 [S6 [S7 S8]]]]]]].
  assert (Du : ~ In a (map fst (used s))).
  { intro J. pose proof (ok_pw O2) as W. rewrite ivs_app in W. cbn [ivs map snd] in W. rewrite <- app_assoc in W. apply pairwise_app in W as [_ [W _]]. cbn [app pairwise] in W. destruct W as [W _].
    apply Forall_app in W as [_ W]. apply in_map_iff in J as [[x y] [X J]]. cbn [fst] in X. subst x. rewrite Forall_forall in W. specialize (W _ J). unfold disjoint in W. cbn [fst snd] in W.
    pose proof (ok_in O) as I. apply Forall_app in I as [_ I]. rewrite Forall_forall in I. specialize (I _ J). unfold inside in I. cbn [fst snd] in I. lia. }
  assert (Eu : usedSet (used s3) a z = (a, z) :: used s).
  { unfold usedSet. rewrite S5. f_equal. unfold usedDel. clear - Du. revert Du. induction (used s) as [|[x y] u IH]; intro Du; [reflexivity|]. cbn [filter fst map In] in *.
    destruct (Z.eqb_spec x a) as [->|X]; [exfalso; apply Du; left; reflexivity|]. cbn [negb]. f_equal. apply IH. tauto. }
  eexists. split; [rewrite S1; reflexivity|]. cbn [start blockSize reserved used]. rewrite Eu. repeat split; auto.
  exists (k1 ++ k2). cbn [blockSize reserved used]. rewrite S3, S4. split; [destruct D3 as [X1 X2 X3 X4 X5 X6 X7]; split; assumption|]. split; [exact Hb|]. split.
  - rewrite ivs_app in *. cbn [ivs map snd] in O2. rewrite B1, R1 in O2. apply ok_take; assumption.
  - rewrite Z1 in Z2. rewrite <- Sz, <- Z2. rewrite !ivs_app, !ivs_cons, !sizes_app, !sizes_cons. cbn [snd]. lia.
Qed.

(** ** Coalescing *)
Lemma contiguous_tl x l : contiguous (x :: l) -> contiguous l.
Proof. intros H l1 y z l2 E. apply (H (x :: l1) y z l2). rewrite E. reflexivity. Qed.

Fixpoint wseg (st : nat -> option memblock) (ns : list block) : Prop :=
  match ns with [] => True | (p, (a, z)) :: r => (exists pv, st p = Some (MB a z (hdor (ptrs r) None) pv)) /\ wseg st r end.
Lemma wseg_ext st st' ns : (forall q, In q (ptrs ns) -> st' q = st q) -> wseg st ns -> wseg st' ns.
Proof.
  induction ns as [|[p [a z]] ns IH]; intros F H; [exact I|]. cbn [wseg] in *. destruct H as [[pv E] H]. split; [exists pv; rewrite F by (left; reflexivity); exact E|].
  apply IH; [|exact H]. intros q J. apply F. right. exact J.
Qed.
Lemma seg_wseg st ns : forall pv, seg st pv ns None -> wseg st ns.
Proof. induction ns as [|[p [a z]] ns IH]; intros pv H; [exact I|]. cbn [seg wseg] in *. destruct H as [E H]. split; [eauto|eapply IH; eauto]. Qed.

Lemma innerAll : forall n2 fuel s n1 p a z, (length n2 < fuel)%nat ->
  let ns := n1 ++ (p, (a, z)) :: n2 in
  seg (mem s) None n1 (Some p) -> mem s p = Some (MB a z (hdor (ptrs n2) None) (lastor (ptrs n1) None)) -> wseg (mem s) n2 ->
  first s = hdor (ptrs ns) None -> last s = lastor (ptrs ns) None -> NoDup (ptrs ns) -> Forall (fun p => (p < fresh s)%nat) (ptrs ns) ->
  len s = Z.of_nat (length ns) -> StronglySorted before (ivs ns) -> contiguous ((a, z) :: ivs n2) ->
  exists s', coalesceInner fuel s p = Some s' /\ fits s s' (n1 ++ [(p, (a, z + sizes (ivs n2)))]).
Proof.
  induction n2 as [|[q [aq zq]] n2 IH]; intros fuel s n1 p a z Hf ns G1 Ep W F La ND Lt Le So C; (destruct fuel as [|fuel]; [lia|]).
  - cbn [coalesceInner]. unfold deref. rewrite Ep. cbn [bind next ptrs map hdor]. exists s. split; [reflexivity|]. split; [|split; [apply same_refl|reflexivity]].
    cbn [ivs map sizes fold_right]. rewrite Z.add_0_r. split; auto.
    apply seg_app. cbn [seg ptrs map hdor fst]. auto.
  - cbn [length] in Hf. cbn [wseg] in W. destruct W as [[pv Eq] W].
    assert (Ec : a + z = aq) by (apply (C [] (a, z) (aq, zq) (ivs n2) eq_refl)).
    unfold ns in ND. rewrite ptrs_app in ND. cbn [ptrs map fst] in ND. fold (ptrs n2) in ND.
    assert (ND1 := NoDup_remove_1 _ _ _ ND). assert (Np := NoDup_remove_2 _ _ _ ND). assert (Nq := NoDup_remove_2 _ _ _ ND1).
    assert (Nqp : q <> p) by (intros ->; apply Np, in_or_app; right; left; reflexivity).
    cbn [coalesceInner]. unfold deref. rewrite Ep. cbn [bind next ptrs map fst hdor]. rewrite Eq. cbn [bind]. unfold cap at 1. cbn [address size next].
    rewrite (proj2 (Z.eqb_eq _ _) Ec). rewrite (upd_some _ _ _ _ Ep). cbn [bind].
    rewrite (upd_some _ p _ (MB a (z + zq) (Some q) (lastor (ptrs n1) None))) by (cbn [withMem mem]; rewrite Nat.eqb_refl; reflexivity). cbn [bind].
    rewrite (upd_some _ q _ (MB aq zq (hdor (ptrs n2) None) pv)) by (cbn [withMem mem]; rewrite (proj2 (Nat.eqb_neq q p)) by congruence; exact Eq). cbn [bind].
    rewrite (upd_some _ q _ (MB aq zq None pv)) by (cbn [withMem mem]; rewrite Nat.eqb_refl; reflexivity). cbn [bind].
    match goal with |- context [coalesceInner fuel ?S p] => set (s1 := S) end.
    assert (M : forall x, x <> p -> x <> q -> mem s1 x = mem s x).
    { intros x X1 X2. unfold s1. destruct (eqO _ q); cbn [withLen withLast withMem mem]; rewrite ?(proj2 (Nat.eqb_neq x q)), ?(proj2 (Nat.eqb_neq x p)) by assumption; reflexivity. }
    assert (Mp : mem s1 p = Some (MB a (z + zq) (hdor (ptrs n2) None) (lastor (ptrs n1) None))).
    { unfold s1. destruct (eqO _ q); cbn [withLen withLast withMem mem]; rewrite ?(proj2 (Nat.eqb_neq p q)), ?Nat.eqb_refl by congruence; reflexivity. }
    destruct (IH fuel s1 n1 p a (z + zq)) as [s' [E' [D' [S' F']]]]; try assumption.
    + lia.
    + eapply seg_ext; [|exact G1]. intros x J. apply M; intros ->; [apply Np|apply Nq]; apply in_or_app; left; exact J.
    + eapply wseg_ext; [|exact W]. intros x J. apply M; intros ->; [apply Np|apply Nq]; apply in_or_app; right; [right|]; exact J.
    + unfold s1. transitivity (first s); [destruct (eqO _ q); reflexivity|]. rewrite F. unfold ns. rewrite !ptrs_app. destruct n1; reflexivity.
    + unfold s1. cbn [withMem last]. rewrite La. unfold ns. rewrite !ptrs_app, !lastor_app. cbn [ptrs map fst lastor]. fold (ptrs n2). destruct n2 as [|[q2 x2] n2'].
      * cbn [ptrs map lastor eqO]. rewrite Nat.eqb_refl. reflexivity.
      * assert (X : forall o o', lastor (ptrs ((q2, x2) :: n2')) o = lastor (ptrs ((q2, x2) :: n2')) o') by reflexivity.
        rewrite (X (Some p) (Some q)). assert (Z : eqO (lastor (ptrs ((q2, x2) :: n2')) (Some q)) q = false).
        { apply eqO_false. intro V. apply lastor_in in V as [V|[V _]]; [apply Nq, in_or_app; right; exact V|discriminate]. }
        rewrite Z. cbn [withLen withMem last]. rewrite La. unfold ns. rewrite ptrs_app, lastor_app. reflexivity.
    + rewrite ptrs_app. cbn [ptrs map fst]. fold (ptrs n2). apply NoDup_mid; [|intro J; apply Np; apply in_app_or in J as [J|J]; apply in_or_app; [left|right; right]; exact J]. apply NoDup_remove_1 in ND1. exact ND1.
    + unfold ns in Lt. rewrite ptrs_app in *. cbn [ptrs map fst] in *. apply Forall_app in Lt as [L1 L2]. inversion L2 as [|? ? L3 L4]; subst. inversion L4 as [|? ? L5 L6]; subst.
      assert (Fr : fresh s1 = fresh s) by (unfold s1; destruct (eqO _ q); reflexivity). rewrite Fr. apply Forall_app. split; [exact L1|]. constructor; assumption.
    + unfold s1. cbn [withLen len]. transitivity (len s - 1); [destruct (eqO _ q); reflexivity|]. rewrite Le. unfold ns. rewrite !app_length. cbn [length]. lia.
    + unfold ns in So. rewrite !ivs_app, !ivs_cons in *. apply sorted_app in So as [S1 [S2 S3]]. apply sorted_app. split; [exact S1|]. split.
      * inversion S2 as [|? ? A B]; subst. inversion A as [|? ? A1 A2]; subst. constructor; [exact A1|]. eapply Forall_impl; [|exact A2]. unfold before. cbn [fst snd]. lia.
      * eapply Forall_impl; [|exact S3]. cbn beta. intros x X. inversion X as [|? ? X1 X2]; subst. inversion X2; subst. constructor; [exact X1|assumption].
    + rewrite ivs_cons in C. intros l1 x y l2 E. destruct l1 as [|x1 l1].
      * cbn [app] in E. injection E as <- E. cbn [fst snd]. pose proof (C [(a, z)] (aq, zq) y l2) as X. cbn [app] in X. unfold block in *. rewrite E in X. specialize (X eq_refl). cbn [fst snd] in X. lia.
      * cbn [app] in E. injection E as <- E. apply (C ((a, z) :: (aq, zq) :: l1) x y l2). cbn [app]. unfold block in *. rewrite <- E. reflexivity.
    + exists s'. split; [exact E'|]. rewrite ivs_cons, sizes_cons. cbn [snd]. replace (z + (zq + sizes (ivs n2))) with (z + zq + sizes (ivs n2)) by lia. split; [exact D'|]. split.
      * eapply same_trans; [|exact S']. unfold s1. destruct (eqO _ q); repeat split.
      * rewrite F'. unfold s1. destruct (eqO _ q); reflexivity.
Qed.

Lemma ok_mergeAll bs tot : forall l2 l1 a z us, okIv bs tot (l1 ++ (a, z) :: l2) us -> a mod bs = 0 -> contiguous ((a, z) :: l2) ->
  okIv bs tot (l1 ++ [(a, z + sizes l2)]) us.
Proof.
  induction l2 as [|[a' z'] l2 IH]; intros l1 a z us O Ha C.
  - cbn [sizes fold_right]. rewrite Z.add_0_r. exact O.
  - assert (Ec : a + z = a') by (apply (C [] (a, z) (a', z') l2 eq_refl)). subst a'. rewrite sizes_cons. cbn [snd]. rewrite Z.add_assoc. apply IH; [apply ok_merge; assumption|exact Ha|].
    intros k1 x y k2 E. destruct k1 as [|x1 k1]; cbn [app] in E; injection E as <- E.
    + cbn [fst snd]. pose proof (C [(a, z)] (a + z, z') y k2) as X. cbn [app] in X. rewrite E in X. specialize (X eq_refl). cbn [fst snd] in X. lia.
    + apply (C ((a, z) :: (a + z, z') :: k1) x y k2). cbn [app]. rewrite <- E. reflexivity.
Qed.

Lemma coalesceLoop_dll : forall n2 fuel s n1, (length n2 < fuel)%nat -> Dll s (n1 ++ n2) ->
  okIv (blockSize s) (reserved s) (ivs (n1 ++ n2)) (used s) -> calm (blockSize s) (ivs n2) ->
  exists s' ns', coalesceLoop fuel s (hdor (ptrs n2) None) = Some s' /\ Dll s' ns' /\ same s s' /\
    okIv (blockSize s) (reserved s) (ivs ns') (used s) /\ sizes (ivs ns') = sizes (ivs (n1 ++ n2)).
Proof.
  induction n2 as [|[p [a z]] n2 IH]; intros fuel s n1 Hf D O C; (destruct fuel as [|fuel]; [lia|]).
  - exists s, (n1 ++ []). cbn [coalesceLoop ptrs map hdor]. split; [reflexivity|]. split; [exact D|]. split; [apply same_refl|]. split; [exact O|reflexivity].
  - cbn [length] in Hf. assert (Ep := seg_at _ _ _ _ _ _ _ _ (d_seg _ _ D)). cbn [coalesceLoop ptrs map fst hdor]. unfold deref. rewrite Ep. cbn [bind address].
    assert (Next : exists s' ns', coalesceLoop fuel s (hdor (ptrs n2) None) = Some s' /\ Dll s' ns' /\ same s s' /\
      okIv (blockSize s) (reserved s) (ivs ns') (used s) /\ sizes (ivs ns') = sizes (ivs (n1 ++ (p, (a, z)) :: n2))).
    { assert (Ea : n1 ++ (p, (a, z)) :: n2 = (n1 ++ [(p, (a, z))]) ++ n2) by (rewrite <- app_assoc; reflexivity). rewrite Ea. apply IH; [lia|rewrite <- Ea; exact D|rewrite <- Ea; exact O|].
      intros l1 x y l2 E. apply (C ((a, z) :: l1) x y l2). rewrite ivs_cons. cbn [app]. f_equal. exact E. }
    destruct (Z.eqb_spec (a mod blockSize s) 0) as [Ha|Ha]; cbn [negb bind].
    2:{ rewrite Ep. cbn [bind next]. exact Next. }
    destruct n2 as [|[q [aq zq]] n3].
    + (* the last block *)
      cbn [coalesceInner]. unfold deref. rewrite Ep. cbn [bind next ptrs map hdor]. rewrite Ep. cbn [bind next]. exact Next.
    + destruct (Z.eqb_spec (a + z) aq) as [Ec|Ec].
      * (* merge all *)
        assert (Cc : contiguous ((a, z) :: ivs ((q, (aq, zq)) :: n3))).
        { rewrite ivs_cons. pose proof (C [] (a, z) (aq, zq) (ivs n3) eq_refl Ha Ec) as X. intros l1 x y l2 E. destruct l1 as [|x1 l1]; cbn [app] in E; injection E as <- E.
          - inversion E. subst. reflexivity.
          - apply (X l1 x y l2 E). }
        destruct (innerAll ((q, (aq, zq)) :: n3) (S (fresh s)) s n1 p a z) as [s1 [E1 [D1 [S1 F1]]]].
        { pose proof (dll_length _ _ D) as L. rewrite app_length in L. cbn [length] in L |- *. unfold block in *. lia. }
        { pose proof (d_seg _ _ D) as G. apply seg_app in G as [G _]. exact G. }
        { exact Ep. }
        { pose proof (d_seg _ _ D) as G. apply seg_app in G as [_ G]. cbn [seg] in G. destruct G as [_ G]. eapply seg_wseg. exact G. }
        { apply (d_first _ _ D). }
        { apply (d_last _ _ D). destruct n1; discriminate. }
        { apply (d_nodup _ _ D). } { apply (d_lt _ _ D). } { apply (d_len _ _ D). } { apply (d_sorted _ _ D). } { exact Cc. }
        rewrite E1. cbn [bind]. rewrite (seg_at _ _ _ _ _ _ _ _ (d_seg _ _ D1)). cbn [bind next ptrs map hdor].
        destruct fuel as [|fuel]; [cbn [length] in Hf; lia|]. cbn [coalesceLoop].
        exists s1, (n1 ++ [(p, (a, z + sizes (ivs ((q, (aq, zq)) :: n3))))]). split; [reflexivity|]. split; [exact D1|]. split; [exact S1|]. split.
        -- rewrite ivs_app in *. rewrite ivs_cons in O |- *. apply (ok_mergeAll _ _ _ _ _ _ _ O Ha Cc).
        -- rewrite !ivs_app, !ivs_cons, !sizes_app, !sizes_cons. cbn [snd ivs map sizes fold_right]. lia.
      * (* merge nothing *)
        assert (Eq : exists pv nx, mem s q = Some (MB aq zq nx pv)).
        { pose proof (d_seg _ _ D) as G. apply seg_app in G as [_ G]. cbn [seg] in G. destruct G as [_ [G _]]. eauto. }
        destruct Eq as [pv [nx Eq]].
        assert (Bq : before (a, z) (aq, zq)).
        { pose proof (d_sorted _ _ D) as So. rewrite ivs_app, !ivs_cons in So. apply sorted_app in So as [_ [So _]]. inversion So as [|? ? _ B]; subst. inversion B; assumption. }
        assert (Pz : 0 < z).
        { pose proof (ok_pos _ _ _ _ O) as P. rewrite ivs_app, ivs_cons in P. apply Forall_app in P as [_ P]. inversion P; subst. assumption. }
        assert (Npq : p <> q).
        { pose proof (d_nodup _ _ D) as ND. rewrite ptrs_app in ND. apply NoDup_appr in ND. cbn [ptrs map fst] in ND. inversion ND as [|? ? X _]; subst. intros ->. apply X. left. reflexivity. }
        cbn [coalesceInner]. unfold deref. rewrite Ep. cbn [bind next ptrs map fst hdor]. rewrite Eq. cbn [bind]. unfold cap at 1. cbn [address size].
        rewrite (proj2 (Z.eqb_neq _ _) Ec).
        destruct (overlap_before (Nat.eqb p q) true (MB a z (Some q) (lastor (ptrs n1) None)) (MB aq zq nx pv)) as [Ov _]; cbn [address size]; auto.
        { apply Nat.eqb_neq. exact Npq. }
        rewrite Ov. cbn [bind]. rewrite Ep. cbn [bind next]. exact Next.
Qed.

Lemma coalesce_dll s ns : Dll s ns -> okIv (blockSize s) (reserved s) (ivs ns) (used s) -> calm (blockSize s) (freeBlocks s) ->
  exists s' ns', coalesce s = Some s' /\ Dll s' ns' /\ same s s' /\ okIv (blockSize s) (reserved s) (ivs ns') (used s) /\ sizes (ivs ns') = sizes (ivs ns).
Proof.
  intros D O C. rewrite (dll_free _ _ D) in C. unfold coalesce. rewrite (d_first _ _ D). apply (coalesceLoop_dll ns (S (fresh s)) s []); auto. pose proof (dll_length _ _ D). lia.
Qed.

Lemma giveBack_dll s ns a z : Dll s ns -> 0 < blockSize s -> okIv (blockSize s) (reserved s) (ivs ns) (used s) ->
  sizes (ivs ns) + sizes (used s) = reserved s -> usedGet (used s) a = Some z ->
  exists s' ns', giveBack s a z = Some s' /\ Dll s' ns' /\ start s' = start s /\ blockSize s' = blockSize s /\ reserved s' = reserved s /\
    used s' = usedDel (used s) a /\ okIv (blockSize s) (reserved s) (ivs ns') (usedDel (used s) a) /\ sizes (ivs ns') + sizes (usedDel (used s) a) = reserved s.
Proof.
  intros D Hb O Sz U. apply usedGet_in in U. destruct (ok_give _ _ _ _ _ _ O U) as [O1 Pu].
  unfold giveBack. cbn [newMemblock].
  match goal with |- context [insert ?X ?K] => set (s1 := X) end.
  assert (Lt := d_lt _ _ D).
  assert (Nf : forall q, In q (ptrs ns) -> q <> fresh s) by (intros q J ->; rewrite Forall_forall in Lt; specialize (Lt _ J); lia).
  assert (D1 : Dll s1 ns).
  { destruct D as [X1 X2 X3 X4 X5 X6 X7]. split; unfold s1; cbn [mem fresh first last len]; auto.
    - eapply seg_ext; [|exact X1]. intros q J. cbn beta. rewrite (proj2 (Nat.eqb_neq q (fresh s))) by (apply Nf; exact J). reflexivity.
    - eapply Forall_impl; [|exact X5]. cbn beta. intros; lia. }
  assert (N1 : newB s1 ns (fresh s) a z).
  { split; unfold s1; cbn [mem fresh]; [rewrite Nat.eqb_refl; reflexivity|lia|intro J; apply (Nf _ J); reflexivity]. }
  assert (P := ok_pos _ _ _ _ O1). inversion P as [|? ? P1 P2]; subst. cbn [snd] in P1.
  pose proof (ok_pw O1) as W. cbn [app pairwise] in W. destruct W as [W _]. apply Forall_app in W as [W _].
  destruct (insert_dll s1 ns (fresh s) a z D1 N1 P1 P2 W) as [s2 [n1 [n2 [En [Ei [D2 [[S1 [S2 [S3 [S4 [S5 _]]]]] _]]]]]]].
  rewrite Ei. cbn [bind]. eexists. exists (n1 ++ (fresh s, (a, z)) :: n2). split; [reflexivity|]. cbn [start blockSize reserved used]. unfold s1 in S1, S3, S4, S5. cbn [start blockSize reserved used] in *. rewrite S1, S3, S4, S5.
  assert (Pm : Permutation ((a, z) :: ivs ns) (ivs (n1 ++ (fresh s, (a, z)) :: n2))) by (rewrite En, !ivs_app, ivs_cons; apply Permutation_middle).
  assert (Ps : forall l l', Permutation l l' -> sizes l = sizes l') by (intros l l' X; unfold sizes; induction X; cbn [fold_right]; lia).
  split; [destruct D2 as [X1 X2 X3 X4 X5 X6 X7]; split; assumption|]. repeat split; [| | | |].
  1-4: eapply ok_perm; [exact Pm|exact O1].
  rewrite <- (Ps _ _ Pm). rewrite (Ps _ _ Pu) in Sz. rewrite sizes_cons in *. cbn [snd] in *. lia.
Qed.

Lemma usedDel_get us a : usedGet us a = None -> usedDel us a = us.
Proof.
  induction us as [|[k v] us IH]; [reflexivity|]. unfold usedDel. cbn [usedGet filter fst]. destruct (k =? a); [discriminate|]. cbn [negb]. intro H. f_equal. apply IH, H.
Qed.

Definition kept (s s' : bfc) : Prop := start s' = start s /\ blockSize s' = blockSize s /\ reserved s' = reserved s.

Lemma step_calm s c : CInv s -> calmStep s c -> exists s' r, step s c = Some (s', r) /\ CInv s' /\ kept s s' /\
  match c, r with
  | Alloc z, Address a => used s' = (a - start s, z) :: used s
  | Alloc _, _ => used s' = used s
  | Free a, _ => used s' = usedDel (used s) (a - start s)
  end.
Proof.
  intros [ns [D [Hb [O Sz]]]] C. destruct c as [z|addr]; cbn [step calmStep] in *.
  - unfold alloc. destruct (Z.leb_spec z 0) as [Hz|Hz].
    { exists s, BadSize. split; [reflexivity|]. split; [exists ns; auto|]. split; [repeat split|reflexivity]. }
    destruct (bestFit_dll s ns (align s z) D) as [[l1 [p [a [zb [l2 [-> [_ [L E]]]]]]]]|[F E]]; rewrite E; cbn [bind].
    + destruct (take_dll s l1 p a zb l2 z D Hb O Sz Hz L) as [s' [T [I' [K1 [K2 [K3 K4]]]]]]. exists s', (Address (a + start s)). split; [exact T|]. split; [exact I'|]. split; [repeat split; assumption|].
      rewrite K4. f_equal. f_equal. lia.
    + rewrite (dll_free _ _ D) in C. specialize (C Hz F). rewrite <- (dll_free _ _ D) in C. destruct (coalesce_dll s ns D O C) as [s1 [n1 [E1 [D1 [[Q1 [Q2 [Q3 [Q4 [Q5 _]]]]] [O1 Z1]]]]]]. rewrite E1. cbn [bind].
      assert (Al : align s z = align s1 z) by (unfold align; rewrite Q3; reflexivity). rewrite Al.
      rewrite <- Q5, <- Q3, <- Q4 in O1. rewrite <- Q3 in Hb. rewrite <- Z1, <- Q5, <- Q4 in Sz.
      destruct (bestFit_dll s1 n1 (align s1 z) D1) as [[l1 [p [a [zb [l2 [-> [_ [L E2]]]]]]]]|[F2 E2]]; rewrite E2; cbn [bind].
      * destruct (take_dll s1 l1 p a zb l2 z D1 Hb O1 Sz Hz L) as [s' [T [I' [K1 [K2 [K3 K4]]]]]]. exists s', (Address (a + start s1)). split; [exact T|]. split; [exact I'|]. split; [repeat split; congruence|].
        rewrite K4, Q5, Q1. f_equal. f_equal. lia.
      * exists s1, OutOfMemory. split; [reflexivity|]. split; [exists n1; auto|]. split; [repeat split; assumption|exact Q5].
  - unfold free. destruct (usedGet (used s) (addr - start s)) as [z|] eqn:U.
    2:{ exists s, Freed. split; [reflexivity|]. split; [exists ns; auto|]. split; [repeat split|]. symmetry. apply usedDel_get. exact U. }
    destruct (giveBack_dll s ns _ z D Hb O Sz U) as [s1 [n1 [E1 [D1 [Q1 [Q2 [Q3 [Q4 [O1 Z1]]]]]]]]]. rewrite E1. cbn [bind].
    rewrite <- Q4, <- Q2, <- Q3 in O1. rewrite <- Q4, <- Q3 in Z1. rewrite <- Q2 in Hb.
    destruct (thresh s1) eqn:T.
    + specialize (C z s1 eq_refl E1 T). destruct (coalesce_dll s1 n1 D1 O1 C) as [s2 [n2 [E2 [D2 [[V1 [V2 [V3 [V4 [V5 _]]]]] [O2 Z2]]]]]]. rewrite E2. cbn [bind].
      exists s2, Freed. split; [reflexivity|]. split; [|split; [repeat split; congruence|congruence]].
      exists n2. rewrite V3, V4, V5, Z2. auto.
    + exists s1, Freed. split; [reflexivity|]. split; [exists n1; auto|]. split; [repeat split; assumption|exact Q4].
Qed.
