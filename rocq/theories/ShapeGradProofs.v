(** Proofs for ShapeGradProps.v: sums over coordinates, transposition, slicing, Concat. *)
From Coq Require Import List ZArith Bool Lia Ring Permutation.
From Verif Require Import Sums BroadcastModel BroadcastSpec BroadcastProofs ShapeGradModel ShapeGradSpec.
Import ListNotations.
Local Open Scope Z_scope.

Lemma eqShape_iff s t : eqShape s t = true <-> s = t.
Proof. unfold eqShape. destruct (list_eq_dec Z.eq_dec s t); split; congruence. Qed.
Lemma eqShape_refl s : eqShape s s = true.
Proof. apply eqShape_iff. reflexivity. Qed.

(** ** Coordinates *)
Lemma coords_in s idx : In idx (coords s) <-> inside s idx.
Proof.
  revert idx. induction s as [|d s IH]; intro idx; cbn [coords].
  - cbn [In]. split; [intros [<-|[]]; constructor|]. intro H. inversion H. auto.
  - rewrite in_flat_map. split.
    + intros [i [Hi H]]. apply in_seq in Hi. apply in_map_iff in H. destruct H as [r [<- Hr]]. constructor; [lia|]. apply IH, Hr.
    + intro H. inversion H as [|? i ? r Hi Hr]; subst. exists (Z.to_nat i). split; [apply in_seq; lia|]. apply in_map_iff. exists r. split; [f_equal; lia|]. apply IH, Hr.
Qed.
Lemma NoDup_flat {B C} (f : B -> list C) l : NoDup l -> (forall x, In x l -> NoDup (f x)) ->
  (forall x y c, In x l -> In y l -> In c (f x) -> In c (f y) -> x = y) -> NoDup (flat_map f l).
Proof.
  induction 1 as [|x l Hx HN IH]; intros H1 H2; cbn [flat_map]; [constructor|].
  assert (HI : NoDup (flat_map f l)) by (apply IH; [intros; apply H1; right; auto|intros y z c Hy Hz; apply H2; right; auto]).
  assert (HX : NoDup (f x)) by (apply H1; left; reflexivity).
  assert (HD : forall c, In c (f x) -> ~ In c (flat_map f l)).
  { intros c Hc K. apply in_flat_map in K. destruct K as [y [Hy Hcy]]. apply Hx. rewrite (H2 x y c); auto; [left; reflexivity|right; exact Hy]. }
  clear - HI HX HD. induction (f x) as [|c r IH]; cbn [app]; [exact HI|]. inversion_clear HX as [|? ? H1 H2]. constructor.
  - rewrite in_app_iff. intros [K|K]; [contradiction|]. apply (HD c); [left; reflexivity|exact K].
  - apply IH; [exact H2|]. intros c' Hc'. apply HD. right. exact Hc'.
Qed.
Lemma coords_nodup s : NoDup (coords s).
Proof.
  induction s as [|d s IH]; cbn [coords]; [constructor; [intros []|constructor]|]. apply NoDup_flat; [apply seq_NoDup| |].
  - intros i _. apply FinFun.Injective_map_NoDup; [intros x y E; congruence|exact IH].
  - intros i j c _ _ H1 H2. apply in_map_iff in H1. apply in_map_iff in H2. destruct H1 as [r [<- _]], H2 as [q [E _]]. injection E as E _. lia.
Qed.

Section Ring.
Context {A : Type} {CR : CRing A}.
Add Ring Aring : (@cr_th A CR).
Local Open Scope cr_scope.
Notation tens := (@tens A).

(** ** Sums over lists *)
Lemma lsum_ext {B} (f g : B -> A) l : (forall x, In x l -> f x = g x) -> lsum (map f l) = lsum (map g l).
Proof. intro H. f_equal. apply map_ext_in, H. Qed.
Lemma lsum_swap {B C} (f : B -> C -> A) l m :
  lsum (map (fun x => lsum (map (fun y => f x y) m)) l) = lsum (map (fun y => lsum (map (fun x => f x y) l)) m).
Proof.
  induction l as [|x l IH]; cbn [map lsum].
  - symmetry. apply lsum_map_zero. reflexivity.
  - rewrite IH, <- lsum_map_add. reflexivity.
Qed.
Lemma lsum_pick (l : list (list Z)) x (f : list Z -> A) : NoDup l -> In x l -> lsum (map (fun y => if eqShape x y then f y else 0) l) = f x.
Proof.
  induction 1 as [|y l Hy HN IH]; intro Hx; [contradiction|]. cbn [map lsum]. destruct (eqShape x y) eqn:E.
  - apply eqShape_iff in E. subst y. rewrite lsum_map_zero; [ring|]. intros z Hz. destruct (eqShape x z) eqn:E; [|reflexivity]. apply eqShape_iff in E. subst z. contradiction.
  - destruct Hx as [->|Hx]; [rewrite eqShape_refl in E; discriminate|]. rewrite IH by exact Hx. ring.
Qed.
Lemma over_coords s : forall F : list Z -> A, over s F = lsum (map F (coords s)).
Proof.
  induction s as [|d s IH]; intro F; cbn [over coords].
  - cbn [map lsum]. ring.
  - rewrite <- lsum_map_seq. induction (seq 0 (Z.to_nat d)) as [|i l IHl]; cbn [map flat_map lsum]; [reflexivity|]. rewrite IHl, map_app, lsum_app, IH, map_map. reflexivity.
Qed.
Lemma over_ext s (F G : list Z -> A) : (forall idx, inside s idx -> F idx = G idx) -> over s F = over s G.
Proof. intro H. rewrite !over_coords. apply lsum_ext. intros x Hx. apply H, coords_in, Hx. Qed.
Lemma over_add s (F G : list Z -> A) : over s (fun idx => F idx + G idx) = over s F + over s G.
Proof. rewrite !over_coords. apply lsum_map_add. Qed.
Lemma over_zero s (F : list Z -> A) : (forall idx, inside s idx -> F idx = 0) -> over s F = 0.
Proof. intro H. rewrite over_coords. apply lsum_map_zero. intros x Hx. apply H, coords_in, Hx. Qed.
Lemma over_pick s x (f : list Z -> A) : inside s x -> over s (fun y => if eqShape x y then f y else 0) = f x.
Proof. intro H. rewrite over_coords. apply lsum_pick; [apply coords_nodup|apply coords_in, H]. Qed.
Lemma over_swap s t (f : list Z -> list Z -> A) : over s (fun x => over t (fun y => f x y)) = over t (fun y => over s (fun x => f x y)).
Proof.
  rewrite !over_coords. rewrite (lsum_ext _ (fun x => lsum (map (fun y => f x y) (coords t)))) by (intros; apply over_coords).
  rewrite (lsum_swap f). apply lsum_ext. intros. symmetry. apply over_coords.
Qed.
Lemma over_mul_l s c (F : list Z -> A) : over s (fun idx => c * F idx) = c * over s F.
Proof. rewrite !over_coords. apply lsum_map_mul_l. Qed.
Lemma ip_over s (f g : list Z -> A) : ip s f g = over s (fun idx => f idx * g idx).
Proof. unfold ip. rewrite over_coords. reflexivity. Qed.
Lemma ip_ext s (f g f' g' : list Z -> A) : (forall idx, inside s idx -> f idx = f' idx) -> (forall idx, inside s idx -> g idx = g' idx) -> ip s f g = ip s f' g'.
Proof. intros H1 H2. rewrite !ip_over. apply over_ext. intros. rewrite H1, H2 by assumption. reflexivity. Qed.

(** Entries that are read through a map of coordinates: the gradient is summed over the
    coordinates that read the same entry. *)
Lemma push s s' (phi : list Z -> list Z) (t g h : list Z -> A) :
  (forall full, inside s' full -> inside s (phi full)) ->
  (forall idx, inside s idx -> h idx = over s' (fun full => if eqShape (phi full) idx then g full else 0)) ->
  ip s' (fun full => t (phi full)) g = ip s t h.
Proof.
  intros H1 H2. rewrite !ip_over.
  transitivity (over s (fun idx => over s' (fun full => if eqShape (phi full) idx then t idx * g full else 0))).
  - rewrite over_swap. apply over_ext. intros full Hf. rewrite (over_pick s (phi full) (fun idx => t idx * g full)) by (apply H1, Hf). reflexivity.
  - apply over_ext. intros idx Hi. rewrite H2 by exact Hi. rewrite <- over_mul_l. apply over_ext. intros full _. destruct (eqShape (phi full) idx); ring.
Qed.
(** The same for maps that can be inverted. *)
Lemma push_bij s s' (phi psi : list Z -> list Z) (t g h : list Z -> A) :
  (forall full, inside s' full -> inside s (phi full) /\ psi (phi full) = full) ->
  (forall idx, inside s idx -> inside s' (psi idx) /\ phi (psi idx) = idx) ->
  (forall idx, inside s idx -> h idx = g (psi idx)) ->
  ip s' (fun full => t (phi full)) g = ip s t h.
Proof.
  intros H1 H2 H3. apply push; [intros full Hf; apply H1, Hf|]. intros idx Hi. rewrite H3 by exact Hi. destruct (H2 idx Hi) as [Hp Ep].
  rewrite <- (over_pick s' (psi idx) g Hp). apply over_ext. intros full Hf. destruct (H1 full Hf) as [_ Ef].
  destruct (eqShape (psi idx) full) eqn:E1, (eqShape (phi full) idx) eqn:E2; try reflexivity.
  - apply eqShape_iff in E1. assert (K : phi full = idx) by congruence. apply eqShape_iff in K. congruence.
  - apply eqShape_iff in E2. assert (K : psi idx = full) by congruence. apply eqShape_iff in K. congruence.
Qed.
End Ring.

(** ** Permutations of axes *)
Lemma nth_repeat0 n i : nth i (repeat 0 n) 0 = 0.
Proof. apply nth_repeat. Qed.
Lemma len_scatter p : forall v acc, length (scatter p v acc) = length acc.
Proof. induction p as [|a p IH]; intros [|x v] acc; cbn [scatter]; auto. rewrite IH. apply len_set. Qed.
Lemma scatter_out p : forall v acc i, Forall (fun a => 0 <= a < Z.of_nat (length acc)) p -> ~ In (Z.of_nat i) p -> nth i (scatter p v acc) 0 = nth i acc 0.
Proof.
  induction p as [|a p IH]; intros [|x v] acc i HF HN; cbn [scatter]; auto. inversion_clear HF as [|? ? H1 H2]. rewrite IH.
  - rewrite nth_set by lia. destruct (Nat.eqb_spec i (Z.to_nat a)) as [E|E]; [|reflexivity]. exfalso. apply HN. left. lia.
  - rewrite len_set. exact H2.
  - intro K. apply HN. right. exact K.
Qed.
Lemma scatter_in p : forall v acc k, NoDup p -> Forall (fun a => 0 <= a < Z.of_nat (length acc)) p -> length v = length p -> (k < length p)%nat ->
  nth (Z.to_nat (nth k p 0)) (scatter p v acc) 0 = nth k v 0.
Proof.
  induction p as [|a p IH]; intros [|x v] acc k HN HF HL Hk; cbn [length] in *; try lia. cbn [scatter]. inversion_clear HN as [|? ? N1 N2]. inversion_clear HF as [|? ? H1 H2]. destruct k as [|k]; cbn [nth].
  - rewrite scatter_out.
    + rewrite nth_set by lia. rewrite Nat.eqb_refl. reflexivity.
    + rewrite len_set. exact H2.
    + rewrite Z2Nat.id by lia. exact N1.
  - apply IH; [exact N2|rewrite len_set; exact H2|lia|lia].
Qed.
Lemma perm_covers p n : is_perm p n -> forall i, 0 <= i < Z.of_nat n -> In i p.
Proof.
  intros [HL [HN HF]] i Hi. assert (K : incl (iota n) p).
  { apply NoDup_length_incl; [exact HN| |].
    - unfold iota. rewrite map_length, seq_length. lia.
    - intros a Ha. rewrite Forall_forall in HF. specialize (HF a Ha). apply in_map_iff. exists (Z.to_nat a). split; [lia|]. apply in_seq. lia. }
  apply K. apply in_map_iff. exists (Z.to_nat i). split; [lia|]. apply in_seq. lia.
Qed.
Lemma len_gather p l : length (gather p l) = length p.
Proof. apply map_length. Qed.
Lemma nth_gather p l k : (k < length p)%nat -> nth k (gather p l) 0 = nth (Z.to_nat (nth k p 0)) l 0.
Proof. intro H. unfold gather. rewrite (nth_indep _ 0 (nth (Z.to_nat 0) l 0)) by (rewrite map_length; exact H). rewrite (map_nth (fun a => nth (Z.to_nat a) l 0)). reflexivity. Qed.
(** Scattering and gathering undo each other. *)
Lemma gather_scatter p n v : is_perm p n -> length v = n -> gather p (scatter p v (repeat 0 n)) = v.
Proof.
  intros [HL [HN HF]] Hv. apply list_eq; [rewrite len_gather; lia|]. intros i Hi. rewrite len_gather in Hi. rewrite nth_gather by exact Hi.
  apply scatter_in; [exact HN|rewrite repeat_length; exact HF|lia|exact Hi].
Qed.
Lemma scatter_gather p n l : is_perm p n -> length l = n -> scatter p (gather p l) (repeat 0 n) = l.
Proof.
  intros P Hl. pose proof P as [HL [HN HF]]. apply list_eq; [rewrite len_scatter, repeat_length; auto|]. intros i Hi. rewrite len_scatter, repeat_length in Hi.
  destruct (In_nth p (Z.of_nat i) 0 (perm_covers p n P (Z.of_nat i) ltac:(lia))) as [k [Hk Ek]].
  replace i with (Z.to_nat (nth k p 0)) by lia. rewrite scatter_in; [apply nth_gather, Hk|exact HN|rewrite repeat_length; exact HF|apply len_gather|exact Hk].
Qed.
Lemma len_iota n : length (iota n) = n.
Proof. unfold iota. rewrite map_length. apply seq_length. Qed.
Lemma nth_iota n i : (i < n)%nat -> nth i (iota n) 0 = Z.of_nat i.
Proof. intro H. unfold iota. apply nth_map_seq, H. Qed.
(** The pattern of the gradient is the inverse permutation. *)
Lemma newPattern_spec p n : is_perm p n -> is_perm (newPattern p) n /\ gather p (newPattern p) = iota n.
Proof.
  intros P. pose proof P as [HL [HN HF]]. unfold newPattern. rewrite HL.
  assert (G : gather p (scatter p (iota n) (repeat 0 n)) = iota n) by (apply (gather_scatter p n); [exact P|apply len_iota]). split; [|exact G].
  assert (L : length (scatter p (iota n) (repeat 0 n)) = n) by (rewrite len_scatter; apply repeat_length).
  assert (V : forall k, (k < n)%nat -> nth (Z.to_nat (nth k p 0)) (scatter p (iota n) (repeat 0 n)) 0 = Z.of_nat k).
  { intros k Hk. rewrite <- nth_gather by lia. rewrite G. apply nth_iota, Hk. }
  assert (W : forall i, (i < n)%nat -> exists k, (k < n)%nat /\ nth k p 0 = Z.of_nat i).
  { intros i Hi. destruct (In_nth p (Z.of_nat i) 0 (perm_covers p n P (Z.of_nat i) ltac:(lia))) as [k [Hk Ek]]. exists k. split; [lia|exact Ek]. }
  split; [exact L|]. split.
  - rewrite (NoDup_nth _ 0). rewrite L. intros i j Hi Hj E. destruct (W i Hi) as [k [Hk Ek]], (W j Hj) as [m [Hm Em]]. pose proof (V k Hk) as V1. pose proof (V m Hm) as V2. rewrite Ek, Nat2Z.id in V1. rewrite Em, Nat2Z.id in V2. assert (k = m) by lia. subst m. lia.
  - apply Forall_forall. intros a Ha. destruct (In_nth _ _ 0 Ha) as [i [Hi Ei]]. rewrite L in Hi. destruct (W i Hi) as [k [Hk Ek]]. pose proof (V k Hk) as V1. rewrite Ek, Nat2Z.id in V1. lia.
Qed.
(** Reading through the inverse is scattering. *)
Lemma gather_newPattern p n l : is_perm p n -> length l = n -> gather (newPattern p) l = scatter p l (repeat 0 n).
Proof.
  intros P Hl. destruct (newPattern_spec p n P) as [[QL _] G]. pose proof P as [HL _].
  assert (E : gather p (gather (newPattern p) l) = l).
  { apply list_eq; [rewrite len_gather; lia|]. intros i Hi. rewrite len_gather in Hi. rewrite nth_gather by exact Hi.
    pose proof (nth_gather p (newPattern p) i Hi) as K. rewrite G, nth_iota in K by lia.
    destruct P as [_ [_ HF]]. rewrite Forall_forall in HF. specialize (HF (nth i p 0) (nth_In _ _ Hi)).
    rewrite nth_gather by lia. rewrite <- K, Nat2Z.id. reflexivity. }
  rewrite <- (scatter_gather p n (gather (newPattern p) l) P) by (rewrite len_gather; exact QL). rewrite E. reflexivity.
Qed.
Lemma scatter_newPattern p n l : is_perm p n -> length l = n -> scatter (newPattern p) l (repeat 0 n) = gather p l.
Proof.
  intros P Hl. destruct (newPattern_spec p n P) as [Q _]. pose proof P as [HL _].
  assert (E : gather (newPattern p) (gather p l) = l) by (rewrite (gather_newPattern p n) by (try exact P; rewrite len_gather; exact HL); apply (scatter_gather p n l P Hl)).
  rewrite <- E at 1. apply (scatter_gather _ n); [exact Q|rewrite len_gather; exact HL].
Qed.
Lemma distinct_iff l : distinct l = true <-> NoDup l.
Proof.
  induction l as [|x l IH]; cbn [distinct]; [split; [constructor|reflexivity]|]. rewrite andb_true_iff, IH, negb_true_iff. split.
  - intros [H1 H2]. constructor; [|exact H2]. intro K. apply not_true_iff_false in H1. apply H1. apply existsb_exists. exists x. split; [exact K|apply Z.eqb_refl].
  - intro H. inversion_clear H as [|? ? H1 H2]. split; [|exact H2]. apply not_true_iff_false. intro K. apply existsb_exists in K. destruct K as [y [Hy Ey]]. apply Z.eqb_eq in Ey. subst y. contradiction.
Qed.
Lemma permOk_iff p n : permOk p n = true <-> is_perm p n.
Proof.
  unfold permOk, is_perm. rewrite !andb_true_iff, Nat.eqb_eq, distinct_iff, forallb_forall, Forall_forall. split.
  - intros [[H1 H2] H3]. split; [exact H1|]. split; [exact H3|]. intros a Ha. specialize (H2 a Ha). lia.
  - intros [H1 [H2 H3]]. split; [split; [exact H1|]|exact H2]. intros a Ha. specialize (H3 a Ha). lia.
Qed.
Lemma inside_gather p n s idx : is_perm p n -> length s = n -> inside s idx -> inside (gather p s) (gather p idx).
Proof.
  intros [HL [HN HF]] Hs Hi. apply inside_nth in Hi. destruct Hi as [Li Hi]. apply inside_nth. rewrite !len_gather. split; [reflexivity|]. intros i Hk. rewrite !nth_gather by exact Hk. apply Hi. rewrite Forall_forall in HF. specialize (HF (nth i p 0) (nth_In _ _ Hk)). lia.
Qed.
Lemma inside_scatter p n s idx : is_perm p n -> length s = n -> inside (gather p s) idx -> inside s (scatter p idx (repeat 0 n)).
Proof.
  intros P Hs Hi. pose proof (newPattern_spec p n P) as [Q _]. pose proof P as [HL _]. pose proof (inside_len _ _ Hi) as Li. rewrite len_gather in Li.
  rewrite <- (gather_newPattern p n) by (try exact P; lia).
  assert (E : gather (newPattern p) (gather p s) = s) by (rewrite (gather_newPattern p n) by (try exact P; rewrite len_gather; exact HL); apply (scatter_gather p n s P Hs)).
  rewrite <- E. apply (inside_gather _ n); [exact Q|rewrite len_gather; exact HL|exact Hi].
Qed.
Lemma identity_inverse p n : is_perm p n -> newPattern p = iota n -> p = iota n.
Proof.
  intros P E. destruct (newPattern_spec p n P) as [_ G]. rewrite E in G. pose proof P as [HL [_ HF]]. apply list_eq; [rewrite len_iota; exact HL|]. intros i Hi. rewrite nth_iota by lia.
  pose proof (nth_gather p (iota n) i Hi) as K. rewrite G, nth_iota in K by lia. rewrite Forall_forall in HF. specialize (HF (nth i p 0) (nth_In _ _ Hi)). rewrite nth_iota in K by lia. lia.
Qed.
Lemma rev_iota_perm n : is_perm (rev (iota n)) n.
Proof.
  split; [rewrite rev_length; apply len_iota|]. split.
  - apply NoDup_rev. unfold iota. apply FinFun.Injective_map_NoDup; [intros x y E; lia|apply seq_NoDup].
  - apply Forall_rev. unfold iota. apply Forall_forall. intros a Ha. apply in_map_iff in Ha. destruct Ha as [i [<- Hi]]. apply in_seq in Hi. lia.
Qed.

Section Tr.
Context {A : Type} {CR : CRing A}.
Notation tens := (@tens A).
Lemma transpose_ok (t : tens) p n : length (shp t) = n -> n <> 0%nat -> is_perm p n -> p <> iota n ->
  transposeNode t p = Ok (Tn (gather p (shp t)) (fun idx => at_ t (scatter p idx (repeat 0 n)))).
Proof.
  intros Hn H0 P HI. unfold transposeNode. pose proof P as [HL _]. destruct (shp t) as [|d s] eqn:E; [cbn [length] in Hn; congruence|]. rewrite <- E in *. rewrite Hn.
  rewrite (proj2 (permOk_iff p n) P). cbn [negb orb]. destruct (eqShape p (iota (length p))) eqn:K; [apply eqShape_iff in K; rewrite HL in K; contradiction|]. rewrite HL. reflexivity.
Qed.
(** The whole of transposition for a permutation that is not the identity. *)
Lemma transpose_all (t : tens) p n : length (shp t) = n -> n <> 0%nat -> is_perm p n -> p <> iota n ->
  exists y, transposeNode t p = Ok y /\ shp y = gather p (shp t) /\
    (forall idx, inside (shp t) idx -> at_ y (gather p idx) = at_ t idx) /\
    (exists b, transposeNode y (newPattern p) = Ok b /\ same b t) /\
    forall g, shp g = shp y -> exists gx, transposeSymDiff p g = Ok gx /\ pulled_back t y g gx /\
      (forall xd, shp xd = shp t -> exists xd', transposeDoDiff p xd g = Ok xd' /\ shp xd' = shp xd /\ forall idx, at_ xd' idx = radd (at_ xd idx) (at_ gx idx)).
Proof.
  intros Hn H0 P HI. pose proof P as [HL _]. destruct (newPattern_spec p n P) as [Q G]. assert (HQ : newPattern p <> iota n) by (intro K; apply HI, identity_inverse; assumption).
  eexists. split; [apply (transpose_ok t p n); assumption|]. cbn [shp at_]. split; [reflexivity|]. split; [|split].
  - intros idx Hi. rewrite scatter_gather; [reflexivity|exact P|rewrite (inside_len _ _ Hi); exact Hn].
  - eexists. split; [apply (transpose_ok _ (newPattern p) n); cbn [shp]; [rewrite len_gather; exact HL|assumption..]|]. split; cbn [shp at_].
    + rewrite (gather_newPattern p n) by (try exact P; rewrite len_gather; exact HL). apply (scatter_gather p n _ P Hn).
    + intros idx Hi. apply coords_in in Hi. rewrite (gather_newPattern p n) in Hi by (try exact P; rewrite len_gather; exact HL). rewrite (scatter_gather p n _ P Hn) in Hi. pose proof (inside_len _ _ Hi) as Li.
      rewrite scatter_newPattern by (try exact P; lia). rewrite (scatter_gather p n) by (try exact P; lia). reflexivity.
  - intros g Hg. assert (Lg : length (shp g) = n) by (rewrite Hg, len_gather; exact HL).
    assert (TG : transposeNode g (newPattern p) = Ok (Tn (gather (newPattern p) (shp g)) (fun idx => at_ g (scatter (newPattern p) idx (repeat 0 n))))) by (apply (transpose_ok g (newPattern p) n); assumption).
    eexists. split; [unfold transposeSymDiff; exact TG|]. split.
    + split; cbn [shp at_].
      * rewrite Hg, (gather_newPattern p n) by (try exact P; rewrite len_gather; exact HL). apply (scatter_gather p n _ P Hn).
      * apply (push_bij (shp t) (gather p (shp t)) (fun full => scatter p full (repeat 0 n)) (fun idx => gather p idx)).
        -- intros full Hf. pose proof (inside_len _ _ Hf) as Lf. rewrite len_gather in Lf. split; [apply (inside_scatter p n); assumption|]. apply (gather_scatter p n); [exact P|lia].
        -- intros idx Hi. pose proof (inside_len _ _ Hi) as Li. split; [apply (inside_gather p n); assumption|]. apply (scatter_gather p n); [exact P|lia].
        -- intros idx Hi. pose proof (inside_len _ _ Hi) as Li. rewrite scatter_newPattern by (try exact P; lia). reflexivity.
    + intros xd Hx. unfold transposeDoDiff, bind. rewrite TG. eexists. split; [reflexivity|]. split; [reflexivity|]. reflexivity.
Qed.
End Tr.
