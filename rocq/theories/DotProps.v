From Coq Require Import List Arith Bool String Ascii Lia Permutation.
From Verif Require Import BroadcastModel DotModel DotSpec.
Import ListNotations.
Open Scope nat_scope.

(** ** Groups *)
Lemma group_eqb_spec a b : group_eqb a b = true <-> a = b.
Proof.
  unfold group_eqb. destruct a as [i s], b as [j t]; cbn [gid gname].
  rewrite Bool.andb_true_iff, Nat.eqb_eq, String.eqb_eq. split.
  - intros [-> ->]; reflexivity.
  - intros E; injection E; auto.
Qed.
Lemma group_eqb_refl a : group_eqb a a = true.
Proof. apply group_eqb_spec; reflexivity. Qed.
Lemma group_eq_dec (a b : group) : {a = b} + {a <> b}.
Proof.
  destruct (group_eqb a b) eqn:E; [left; apply group_eqb_spec; exact E|right].
  intros ->. rewrite group_eqb_refl in E. discriminate.
Qed.
Lemma mem_spec n l : mem n l = true <-> In n l.
Proof.
  unfold mem. rewrite existsb_exists. split.
  - intros (x & I & E). apply Nat.eqb_eq in E. subst; exact I.
  - intros I. exists n. split; [exact I|apply Nat.eqb_refl].
Qed.
Lemma mem_false n l : ~ In n l -> mem n l = false.
Proof. intros H. destruct (mem n l) eqn:E; [apply mem_spec in E; contradiction|reflexivity]. Qed.

Lemma groupsM_home k gs : groupsM k gs = upsert gs (home k).
Proof. destruct k; reflexivity. Qed.
Lemma has_id gs x : existsb (fun y => gid y =? gid x) gs = true <-> In (gid x) (map gid gs).
Proof.
  rewrite existsb_exists, in_map_iff. split.
  - intros (y & I & E). apply Nat.eqb_eq in E. exists y; auto.
  - intros (y & E & I). exists y. split; [exact I|apply Nat.eqb_eq; exact E].
Qed.
Lemma NoDup_snoc {A} (l : list A) x : NoDup l -> ~ In x l -> NoDup (l ++ [x]).
Proof.
  induction l as [|a l IH]; cbn [app]; intros N F.
  - constructor; [intros []|constructor].
  - inversion N as [|? ? N1 N2]; subst. constructor.
    + rewrite in_app_iff. intros [I|[I|[]]]; [auto|subst; apply F; left; reflexivity].
    + apply IH; [exact N2|intros I; apply F; right; exact I].
Qed.
Lemma upsert_once gs x : NoDup (map gid gs) -> NoDup (map gid (upsert gs x)).
Proof.
  intros N. unfold upsert. destruct (existsb _ gs) eqn:E; [exact N|].
  rewrite map_app; cbn [map]. apply NoDup_snoc; [exact N|].
  intros I. apply has_id in I. congruence.
Qed.
Lemma upsert_in gs x y : (forall z, In z gs -> gid z = gid x -> z = x) ->
  (In y (upsert gs x) <-> y = x \/ In y gs).
Proof.
  intros U. unfold upsert. destruct (existsb _ gs) eqn:E.
  - apply has_id in E. apply in_map_iff in E. destruct E as (z & Ez & I).
    rewrite (U z I Ez) in I. split; [auto|intros [->|J]; auto].
  - rewrite in_app_iff; cbn [In]. split; [intros [A|[A|[]]]; auto|intros [A|A]; auto].
Qed.
Lemma home_id k : gid (home k) < 4.
Proof. destruct k; cbn; lia. Qed.
Lemma own_unique g n : built g -> In n (nodes g) ->
  forall z, In z (groupsOf g n) -> gid z = gid (home (kindOf g n)) -> z = home (kindOf g n).
Proof.
  intros B I z J E. destruct (b_own g B n z I J) as [A|[_ A]]; [exact A|].
  pose proof (home_id (kindOf g n)). lia.
Qed.

(** ** Clusters *)
Definition topKeys : list group := [ConstantCluster; InputCluster; ExprGraphCluster; UndefinedCluster].
Lemma find_None m x : find m x = None <-> ~ In x (map fst m).
Proof.
  induction m as [|[y l] m IH]; cbn [find map fst]; [split; auto|].
  destruct (group_eqb y x) eqn:E.
  - apply group_eqb_spec in E. subst. split; [discriminate|]. intros H; exfalso; apply H; left; reflexivity.
  - rewrite IH. split; intros H.
    + intros [A|A]; [subst; rewrite group_eqb_refl in E; discriminate|auto].
    + intros A; apply H; right; exact A.
Qed.
Lemma find_put m x n y : find (put m x n) y =
  if group_eqb x y then match find m y with Some l => Some (l ++ [n]) | None => None end else find m y.
Proof.
  induction m as [|[z l] m IH]; cbn [find put]; [destruct (group_eqb x y); reflexivity|].
  destruct (group_eqb z x) eqn:Ezx.
  - apply group_eqb_spec in Ezx; subst z. cbn [find]. destruct (group_eqb x y); reflexivity.
  - cbn [find]. destruct (group_eqb z y) eqn:Ezy.
    + destruct (group_eqb x y) eqn:Exy; [|reflexivity].
      apply group_eqb_spec in Ezy, Exy. subst. rewrite group_eqb_refl in Ezx. discriminate.
    + exact IH.
Qed.
Lemma put_keys m x n : map fst (put m x n) = map fst m.
Proof.
  induction m as [|[z l] m IH]; cbn [put map fst]; [reflexivity|].
  destruct (group_eqb z x); cbn [map fst]; [reflexivity|rewrite IH; reflexivity].
Qed.
Lemma find_snoc m x l y : find (m ++ [(x, l)]) y =
  match find m y with Some l' => Some l' | None => if group_eqb x y then Some l else None end.
Proof.
  induction m as [|[z k] m IH]; cbn [find app]; [reflexivity|].
  destruct (group_eqb z y); [reflexivity|exact IH].
Qed.

(** What holds of the clusters when exactly the pairs of [P] have been placed. *)
Definition Inv (c : clusters) (P : nat * group -> Prop) : Prop :=
  map fst (tops c) = topKeys /\
  (forall x l, find (tops c) x = Some l -> lists (fun n => P (n, x)) l) /\
  (forall x l, find (subs c) x = Some l -> l <> [] /\ ~ In x topKeys /\ lists (fun n => P (n, x)) l) /\
  (forall x n, P (n, x) -> In x topKeys \/ find (subs c) x <> None) /\
  NoDup (map fst (subs c)).

Lemma lists_add P l n x (Q : nat * group -> Prop) :
  lists (fun m => P (m, x)) l -> ~ P (n, x) -> (forall p, Q p <-> p = (n, x) \/ P p) ->
  lists (fun m => Q (m, x)) (l ++ [n]).
Proof.
  intros [N E] F H. split.
  - apply NoDup_snoc; [exact N|]. intros I. apply F, E, I.
  - intros m. rewrite in_app_iff, H, E. cbn [In]. split.
    + intros [A|[A|[]]]; [right; exact A|left; subst; reflexivity].
    + intros [A|A]; [injection A as ->; right; left; reflexivity|left; exact A].
Qed.
Lemma lists_other (P Q : nat * group -> Prop) l n x y : lists (fun m => P (m, y)) l -> x <> y ->
  (forall p, Q p <-> p = (n, x) \/ P p) -> lists (fun m => Q (m, y)) l.
Proof.
  intros [N E] D H. split; [exact N|]. intros m. rewrite E, H. split; [auto|].
  intros [A|A]; [injection A as -> ->; contradiction|exact A].
Qed.
Lemma eqb_neq x y : group_eqb x y = false -> x <> y.
Proof. intros E ->. rewrite group_eqb_refl in E. discriminate. Qed.

Lemma place_inv gs n c x (P Q : nat * group -> Prop) :
  Inv c P -> ~ P (n, x) -> (forall p, Q p <-> p = (n, x) \/ P p) ->
  (In x topKeys \/ have gs ExprGraphCluster = true) ->
  exists c', place gs n c x = Ok c' /\ Inv c' Q.
Proof.
  intros (K & T & U & C & D) F H W. unfold place.
  destruct (find (tops c) x) as [l|] eqn:Ft.
  - destruct (T x l Ft) as [N E].
    rewrite mem_false by (intros I; apply F, E, I).
    assert (TX : In x topKeys).
    { rewrite <- K. destruct (in_dec group_eq_dec x (map fst (tops c))) as [I|I]; [exact I|].
      apply find_None in I. congruence. }
    eexists; split; [reflexivity|]. split; [|split; [|split; [|split]]]; cbn [tops subs].
    + rewrite put_keys; exact K.
    + intros y k Hy. rewrite find_put in Hy. destruct (group_eqb x y) eqn:Ex.
      * apply group_eqb_spec in Ex; subst y. rewrite Ft in Hy. injection Hy as <-.
        apply (lists_add P l n x Q); [split; assumption|exact F|exact H].
      * apply (lists_other P Q k n x y (T _ _ Hy) (eqb_neq _ _ Ex) H).
    + intros y k Hy. destruct (U _ _ Hy) as (A1 & A2 & A3). split; [exact A1|]. split; [exact A2|].
      apply (lists_other P Q k n x y A3); [intros <-; contradiction|exact H].
    + intros y m Qy. apply H in Qy. destruct Qy as [A|A].
      * injection A as -> ->. left. exact TX.
      * apply (C y m A).
    + exact D.
  - assert (NT : ~ In x topKeys) by (rewrite <- K; apply find_None; exact Ft).
    destruct W as [W|W]; [contradiction|]. rewrite W.
    destruct (find (subs c) x) as [l|] eqn:Fs.
    + destruct (U x l Fs) as (Z & _ & N & E).
      rewrite mem_false by (intros I; apply F, E, I).
      eexists; split; [reflexivity|]. split; [|split; [|split; [|split]]]; cbn [tops subs].
      * exact K.
      * intros y k Hy. apply (lists_other P Q k n x y (T _ _ Hy)); [|exact H].
        intros <-. congruence.
      * intros y k Hy. rewrite find_put in Hy. destruct (group_eqb x y) eqn:Ex.
        -- apply group_eqb_spec in Ex; subst y. rewrite Fs in Hy. injection Hy as <-.
           split; [destruct l; discriminate|]. split; [exact NT|].
           apply (lists_add P l n x Q); [split; assumption|exact F|exact H].
        -- destruct (U _ _ Hy) as (A1 & A2 & A3). split; [exact A1|]. split; [exact A2|].
           apply (lists_other P Q k n x y A3 (eqb_neq _ _ Ex) H).
      * intros y m Qy. apply H in Qy. rewrite find_put. destruct Qy as [A|A].
        -- injection A as -> ->. right. rewrite group_eqb_refl, Fs. discriminate.
        -- destruct (C y m A) as [B|B]; [left; exact B|right].
           destruct (group_eqb x y); [|exact B]. destruct (find (subs c) y); [discriminate|contradiction].
      * rewrite put_keys. exact D.
    + eexists; split; [reflexivity|]. split; [|split; [|split; [|split]]]; cbn [tops subs].
      * exact K.
      * intros y k Hy. apply (lists_other P Q k n x y (T _ _ Hy)); [|exact H].
        intros <-. congruence.
      * intros y k Hy. rewrite find_snoc in Hy. destruct (find (subs c) y) as [k'|] eqn:Fy.
        -- injection Hy as <-. destruct (U _ _ Fy) as (A1 & A2 & A3). split; [exact A1|]. split; [exact A2|].
           apply (lists_other P Q k' n x y A3); [intros <-; congruence|exact H].
        -- destruct (group_eqb x y) eqn:Ex; [|discriminate]. injection Hy as <-.
           apply group_eqb_spec in Ex; subst y. split; [discriminate|]. split; [exact NT|].
           apply (lists_add P [] n x Q); [|exact F|exact H]. split; [constructor|].
           intros m; split; [intros []|]. intros A. destruct (C x m A) as [B|B]; [contradiction|].
           contradiction.
      * intros y m Qy. apply H in Qy. rewrite find_snoc. destruct Qy as [A|A].
        -- injection A as -> ->. right. rewrite Fs, group_eqb_refl. discriminate.
        -- destruct (C y m A) as [B|B]; [left; exact B|right].
           destruct (find (subs c) y); [discriminate|contradiction].
      * rewrite map_app; cbn [map fst]. apply NoDup_snoc; [exact D|]. apply find_None; exact Fs.
Qed.

Lemma placeAll_inv gs n : forall xs c (P : nat * group -> Prop),
  Inv c P -> NoDup xs -> (forall x, In x xs -> ~ P (n, x)) ->
  (forall x, In x xs -> In x topKeys \/ have gs ExprGraphCluster = true) ->
  exists c', placeAll gs n c xs = Ok c' /\ Inv c' (fun p => (fst p = n /\ In (snd p) xs) \/ P p).
Proof.
  induction xs as [|x xs IH]; intros c P I N F W; cbn [placeAll].
  - exists c. split; [reflexivity|]. destruct I as (K & T & U & C & D).
    assert (E : forall p : nat * group, (fst p = n /\ In (snd p) []) \/ P p <-> P p)
      by (intros p; cbn [In]; split; [intros [[_ []]|A]; exact A|auto]).
    split; [exact K|]. split; [|split; [|split]].
    + intros y l Hy. destruct (T _ _ Hy) as [A B]. split; [exact A|]. intros m. rewrite B, E. reflexivity.
    + intros y l Hy. destruct (U _ _ Hy) as (A & B & A' & B'). split; [exact A|]. split; [exact B|].
      split; [exact A'|]. intros m. rewrite B', E. reflexivity.
    + intros y m Q. apply E in Q. apply (C _ _ Q).
    + exact D.
  - inversion N as [|? ? N1 N2]; subst.
    destruct (place_inv gs n c x P (fun p => p = (n, x) \/ P p)) as (c1 & E1 & I1);
      [exact I|apply F; left; reflexivity|intros p; reflexivity|apply W; left; reflexivity|].
    rewrite E1. destruct (IH c1 _ I1 N2) as (c2 & E2 & I2).
    + intros y Iy [A|A]; [injection A as ->; contradiction|]. apply (F y); [right; exact Iy|exact A].
    + intros y Iy. apply W; right; exact Iy.
    + exists c2. split; [exact E2|].
      destruct I2 as (K & T & U & C & D).
      assert (E : forall p : nat * group,
        (fst p = n /\ In (snd p) (x :: xs)) \/ P p <-> (fst p = n /\ In (snd p) xs) \/ p = (n, x) \/ P p).
      { intros [m y]; cbn [fst snd In]. split.
        - intros [[-> [<-|A]]|A]; auto.
        - intros [[-> A]|[A|A]]; auto. injection A as -> ->. auto. }
      split; [exact K|]. split; [|split; [|split]].
      * intros y l Hy. destruct (T _ _ Hy) as [A B]. split; [exact A|]. intros m. rewrite B, E. reflexivity.
      * intros y l Hy. destruct (U _ _ Hy) as (A & B & A' & B'). split; [exact A|]. split; [exact B|].
        split; [exact A'|]. intros m. rewrite B', E. reflexivity.
      * intros y m Q. apply E in Q. apply (C _ _ Q).
      * exact D.
Qed.

Lemma clusterAll_inv k : forall ns gf c (P : nat * group -> Prop),
  Inv c P -> NoDup ns -> (forall n x, In n ns -> ~ P (n, x)) ->
  (forall n, In n ns -> NoDup (map gid (gf n))) ->
  (forall n x, In n ns -> In x (groupsM (k n) (gf n)) ->
     In x topKeys \/ have (groupsM (k n) (gf n)) ExprGraphCluster = true) ->
  exists gf' c', clusterAll k gf c ns = Ok (gf', c') /\
    (forall n, gf' n = if mem n ns then groupsM (k n) (gf n) else gf n) /\
    Inv c' (fun p => (In (fst p) ns /\ In (snd p) (groupsM (k (fst p)) (gf (fst p)))) \/ P p).
Proof.
  induction ns as [|n ns IH]; intros gf c P I N F G W; cbn [clusterAll].
  - exists gf, c. split; [reflexivity|]. split; [reflexivity|]. destruct I as (K & T & U & C & D).
    assert (E : forall p : nat * group, (In (fst p) [] /\ In (snd p) (groupsM (k (fst p)) (gf (fst p)))) \/ P p <-> P p)
      by (intros p; cbn [In]; split; [intros [[[] _]|A]; exact A|auto]).
    split; [exact K|]. split; [|split; [|split]].
    + intros y l Hy. destruct (T _ _ Hy) as [A B]. split; [exact A|]. intros m. rewrite B, E. reflexivity.
    + intros y l Hy. destruct (U _ _ Hy) as (A & B & A' & B'). split; [exact A|]. split; [exact B|].
      split; [exact A'|]. intros m. rewrite B', E. reflexivity.
    + intros y m Q. apply E in Q. apply (C _ _ Q).
    + exact D.
  - inversion N as [|? ? N1 N2]; subst.
    set (gs := groupsM (k n) (gf n)).
    assert (Ng : NoDup gs).
    { apply (NoDup_map_inv gid). unfold gs. rewrite groupsM_home. apply upsert_once, G. left; reflexivity. }
    destruct (placeAll_inv gs n gs c P I Ng) as (c1 & E1 & I1).
    + intros x _. apply F. left; reflexivity.
    + intros x Ix. apply W; [left; reflexivity|exact Ix].
    + rewrite E1.
      set (gf1 := fun m => if m =? n then gs else gf m).
      assert (Same : forall m, In m ns -> gf1 m = gf m).
      { intros m Im. unfold gf1. destruct (Nat.eqb_spec m n) as [->|_]; [contradiction|reflexivity]. }
      destruct (IH gf1 c1 _ I1 N2) as (gf2 & c2 & E2 & G2 & I2).
      * intros m x Im [[A _]|A]; [cbn in A; subst; contradiction|]. apply (F m x); [right; exact Im|exact A].
      * intros m Im. rewrite Same by exact Im. apply G; right; exact Im.
      * intros m x Im. rewrite Same by exact Im. apply W; right; exact Im.
      * exists gf2, c2. split; [exact E2|]. split.
        { intros m. rewrite G2. unfold mem; cbn [existsb].
          destruct (Nat.eqb_spec m n) as [->|D]; cbn [orb].
          - change (existsb (Nat.eqb n) ns) with (mem n ns). rewrite mem_false by exact N1.
            unfold gf1. rewrite Nat.eqb_refl. reflexivity.
          - unfold gf1. destruct (Nat.eqb_spec m n); [contradiction|]. reflexivity. }
        destruct I2 as (K & T & U & C & D).
        assert (E : forall p : nat * group,
          (In (fst p) (n :: ns) /\ In (snd p) (groupsM (k (fst p)) (gf (fst p)))) \/ P p <->
          (In (fst p) ns /\ In (snd p) (groupsM (k (fst p)) (gf1 (fst p)))) \/
            (fst p = n /\ In (snd p) gs) \/ P p).
        { intros [m y]; cbn [fst snd In]. split.
          - intros [[[<-|A] B]|A]; [right; left; auto| |auto].
            left. split; [exact A|]. rewrite Same by exact A. exact B.
          - intros [[A B]|[[-> B]|A]]; [|left; split; [left; reflexivity|exact B]|auto].
            left. rewrite Same in B by exact A. auto. }
        split; [exact K|]. split; [|split; [|split]].
        -- intros y l Hy. destruct (T _ _ Hy) as [A B]. split; [exact A|]. intros m. rewrite B, E. reflexivity.
        -- intros y l Hy. destruct (U _ _ Hy) as (A & B & A' & B'). split; [exact A|]. split; [exact B|].
           split; [exact A'|]. intros m. rewrite B', E. reflexivity.
        -- intros y m Q. apply E in Q. apply (C _ _ Q).
        -- exact D.
Qed.

(** ** The copied graph *)
Lemma copyNodes_ok : forall ns d, NoDup ns -> (forall n, In n ns -> ~ In n (dnodes d)) ->
  copyNodes d ns = Ok (DG (dnodes d ++ ns) (dedges d)).
Proof.
  induction ns as [|n ns IH]; intros d N F; cbn [copyNodes].
  - rewrite app_nil_r. destruct d; reflexivity.
  - inversion N as [|? ? N1 N2]; subst. unfold addNode.
    rewrite mem_false by (apply F; left; reflexivity).
    rewrite IH; cbn [dnodes dedges].
    + rewrite <- app_assoc. reflexivity.
    + exact N2.
    + intros m Im. rewrite in_app_iff; cbn [In]. intros [A|[A|[]]]; [|subst; contradiction].
      apply (F m); [right; exact Im|exact A].
Qed.
Lemma edge_in (e : list (nat * nat)) u v :
  existsb (fun p => (fst p =? u) && (snd p =? v)) e = true <-> In (u, v) e.
Proof.
  rewrite existsb_exists. split.
  - intros ([a b] & I & E). cbn [fst snd] in E. apply Bool.andb_true_iff in E. destruct E as [E1 E2].
    apply Nat.eqb_eq in E1, E2. subst; exact I.
  - intros I. exists (u, v). split; [exact I|]. cbn [fst snd]. rewrite !Nat.eqb_refl. reflexivity.
Qed.
Lemma copyEdges_ok u : forall vs d, In u (dnodes d) -> NoDup (dedges d) ->
  (forall v, In v vs -> In v (dnodes d) /\ u <> v) ->
  exists e, copyEdges d u vs = Ok (DG (dnodes d) e) /\ NoDup e /\
    forall p, In p e <-> In p (dedges d) \/ (fst p = u /\ In (snd p) vs).
Proof.
  induction vs as [|v vs IH]; intros d Iu N F; cbn [copyEdges].
  - exists (dedges d). split; [destruct d; reflexivity|]. split; [exact N|].
    intros p; cbn [In]. split; [auto|intros [A|[_ []]]; exact A].
  - destruct (F v) as [Iv Duv]; [left; reflexivity|]. unfold setEdge.
    destruct (Nat.eqb_spec u v); [contradiction|].
    rewrite (proj2 (mem_spec u _) Iu), app_nil_r, (proj2 (mem_spec v _) Iv), app_nil_r.
    set (e1 := if existsb _ _ then _ else _).
    assert (N1 : NoDup e1 /\ forall p, In p e1 <-> In p (dedges d) \/ p = (u, v)).
    { unfold e1. destruct (existsb _ (dedges d)) eqn:E.
      - apply edge_in in E. split; [exact N|]. intros p; split; [auto|intros [A| ->]; auto].
      - split.
        + apply NoDup_snoc; [exact N|]. intros I. apply edge_in in I. congruence.
        + intros p. rewrite in_app_iff; cbn [In]. split; [intros [A|[A|[]]]; auto|intros [A|A]; auto]. }
    destruct (IH (DG (dnodes d) e1)) as (e2 & E2 & N2 & M2); cbn [dnodes dedges].
    + exact Iu.
    + apply N1.
    + intros w Iw. apply F; right; exact Iw.
    + exists e2. split; [exact E2|]. split; [exact N2|].
      intros [a b]. rewrite M2; cbn [dedges fst snd In]. rewrite (proj2 N1).
      split.
      * intros [[A|A]|[-> A]]; auto. injection A as -> ->. auto.
      * intros [A|[-> [<-|A]]]; auto.
Qed.
Lemma copyAll_ok g : forall ns d, (forall u, In u ns -> In u (dnodes d)) -> NoDup (dedges d) ->
  (forall u v, In u ns -> In v (kids g u) -> In v (dnodes d) /\ u <> v) ->
  exists e, copyAll d g ns = Ok (DG (dnodes d) e) /\ NoDup e /\
    forall p, In p e <-> In p (dedges d) \/ (In (fst p) ns /\ In (snd p) (kids g (fst p))).
Proof.
  induction ns as [|u ns IH]; intros d Iu N F; cbn [copyAll].
  - exists (dedges d). split; [destruct d; reflexivity|]. split; [exact N|].
    intros p; cbn [In]. split; [auto|intros [A|[[] _]]; exact A].
  - destruct (copyEdges_ok u (kids g u) d) as (e1 & E1 & N1 & M1).
    + apply Iu; left; reflexivity.
    + exact N.
    + intros v Iv. apply F; [left; reflexivity|exact Iv].
    + rewrite E1. destruct (IH (DG (dnodes d) e1)) as (e2 & E2 & N2 & M2); cbn [dnodes dedges].
      * intros w Iw; apply Iu; right; exact Iw.
      * exact N1.
      * intros w v Iw. apply F; right; exact Iw.
      * exists e2. split; [exact E2|]. split; [exact N2|].
        intros [a b]. rewrite M2; cbn [dedges fst snd In]. rewrite M1; cbn [fst snd].
        split.
        -- intros [[A|[-> A]]|[A B]]; auto.
        -- intros [A|[[<-|A] B]]; auto.
Qed.
Lemma copyGraph_ok g : built g -> exists e, copyGraph g = Ok (DG (nodes g) e) /\
  lists (fun p => In (fst p) (nodes g) /\ In (snd p) (kids g (fst p))) e.
Proof.
  intros B. unfold copyGraph.
  rewrite copyNodes_ok by (try apply (b_ids g B); intros n _ []). cbn [dnodes dedges app].
  destruct (copyAll_ok g (nodes g) (DG (nodes g) [])) as (e & E & N & M); cbn [dnodes dedges].
  - auto.
  - constructor.
  - apply (b_kids g B).
  - exists e. split; [exact E|]. split; [exact N|]. intros p. rewrite M; cbn [dedges In].
    split; [intros [[]|A]; exact A|auto].
Qed.

(** ** The export *)
Lemma generate_ok visit g : (forall l, Permutation (visit l) l) -> built g ->
  exists out c, generate visit g = Ok out /\ xsubs out = subs c /\ xtops out = sortedTops (tops c) /\
    dnodes (xgraph out) = nodes g /\
    lists (fun p => In (fst p) (nodes g) /\ In (snd p) (kids g (fst p))) (dedges (xgraph out)) /\
    (forall n, xgroups out n = if mem n (visit (nodes g)) then groupsM (kindOf g n) (groupsOf g n) else groupsOf g n) /\
    Inv c (fun p => (In (fst p) (nodes g) /\
                     (snd p = home (kindOf g (fst p)) \/ In (snd p) (groupsOf g (fst p))))).
Proof.
  intros V B. destruct (copyGraph_ok g B) as (e & E & L).
  unfold generate. rewrite E; cbn [dnodes].
  assert (Vin : forall n, In n (visit (nodes g)) <-> In n (nodes g)).
  { intros n; split; apply Permutation_in; [apply V|symmetry; apply V]. }
  destruct (clusterAll_inv (kindOf g) (visit (nodes g)) (groupsOf g) (CL subGraphs []) (fun _ => False))
    as (gf & c & E2 & G2 & I2).
  - split; [reflexivity|]. split; [|split; [|split]].
    + intros x l H. cbn in H.
      repeat match type of H with context [if ?b then _ else _] => destruct b end; try discriminate;
      injection H as <-; (split; [constructor|intros m; split; [intros []|intros []]]).
    + intros x l H; discriminate H.
    + intros x n [].
    + constructor.
  - apply (Permutation_NoDup (l := nodes g)); [symmetry; apply V|apply (b_ids g B)].
  - intros n x _ [].
  - intros n I. apply (b_once g B), Vin, I.
  - intros n x I J. apply Vin in I. rewrite groupsM_home in J. rewrite upsert_in in J by (apply own_unique; assumption).
    assert (A : x = home (kindOf g n) \/ (kindOf g n = KOp /\ 4 <= gid x)).
    { destruct J as [J|J]; [left; exact J|]. apply (b_own g B n x I J). }
    destruct A as [A|[A _]].
    + left. rewrite A. destruct (kindOf g n); cbn; auto.
    + right. unfold have. rewrite has_id. apply in_map_iff. exists ExprGraphCluster. split; [reflexivity|].
      rewrite groupsM_home. apply upsert_in; [apply own_unique; assumption|]. left. rewrite A. reflexivity.
  - rewrite E2. eexists; exists c. split; [reflexivity|]. cbn [xsubs xtops xgraph dnodes dedges xgroups].
    split; [reflexivity|]. split; [reflexivity|]. split; [reflexivity|]. split; [exact L|].
    split; [exact G2|].
    destruct I2 as (K & T & U & C & D).
    assert (Eq : forall p : nat * group,
      (In (fst p) (visit (nodes g)) /\ In (snd p) (groupsM (kindOf g (fst p)) (groupsOf g (fst p)))) \/ False <->
      In (fst p) (nodes g) /\ (snd p = home (kindOf g (fst p)) \/ In (snd p) (groupsOf g (fst p)))).
    { intros [m y]; cbn [fst snd]. rewrite Vin. split.
      - intros [[A A']|[]]. split; [exact A|]. rewrite groupsM_home in A'.
        apply upsert_in in A'; [exact A'|apply own_unique; assumption].
      - intros [A A']. left. split; [exact A|]. rewrite groupsM_home.
        apply upsert_in; [apply own_unique; assumption|exact A']. }
    split; [exact K|]. split; [|split; [|split]].
    + intros y l Hy. destruct (T _ _ Hy) as [A A']. split; [exact A|]. intros m. rewrite A', Eq. reflexivity.
    + intros y l Hy. destruct (U _ _ Hy) as (A & A' & A2 & A3). split; [exact A|]. split; [exact A'|].
      split; [exact A2|]. intros m. rewrite A3, Eq. reflexivity.
    + intros y m Q. apply Eq in Q. apply (C _ _ Q).
    + exact D.
Qed.

Lemma four (m : cmap) : map fst m = topKeys -> exists a b c d,
  m = [(ConstantCluster, a); (InputCluster, b); (ExprGraphCluster, c); (UndefinedCluster, d)].
Proof.
  destruct m as [|[? a] [|[? b] [|[? c] [|[? d] [|]]]]]; cbn [map fst]; try discriminate.
  unfold topKeys. intros H. injection H as -> -> -> ->. exists a, b, c, d. reflexivity.
Qed.
Lemma own_kind g n k : built g -> In n (nodes g) ->
  (home k = home (kindOf g n) \/ In (home k) (groupsOf g n)) <-> kindOf g n = k.
Proof.
  intros B I. split.
  - intros [H|H].
    + destruct k, (kindOf g n); cbn in H; congruence.
    + destruct (b_own g B n _ I H) as [A|[_ A]].
      * destruct k, (kindOf g n); cbn in A; congruence.
      * pose proof (home_id k). lia.
  - intros <-. left; reflexivity.
Qed.

(** Every graph that the package builds is exported, in whatever order the nodes are visited:
    the clusters are Undefined (empty), ExprGraph, Constants and Inputs, in this order, and
    every node is in the one of its kind, once. *)
Theorem C109_clusters visit g : (forall l, Permutation (visit l) l) -> built g ->
  exists out ops consts ins, generate visit g = Ok out /\
    xtops out = [(UndefinedCluster, []); (home KOp, ops); (home KConst, consts); (home KInput, ins)] /\
    lists (fun n => In n (nodes g) /\ kindOf g n = KOp) ops /\
    lists (fun n => In n (nodes g) /\ kindOf g n = KConst) consts /\
    lists (fun n => In n (nodes g) /\ kindOf g n = KInput) ins.
Proof.
  intros V B. destruct (generate_ok visit g V B) as (out & c & E & _ & T & _ & _ & _ & K & M & _).
  destruct (four _ K) as (a & b & o & d & F). rewrite F in T, M.
  assert (Kind : forall k l, find [(ConstantCluster, a); (InputCluster, b); (ExprGraphCluster, o); (UndefinedCluster, d)] (home k) = Some l ->
     lists (fun n => In n (nodes g) /\ kindOf g n = k) l).
  { intros k l H. destruct (M _ _ H) as [N L]. split; [exact N|]. intros n. rewrite L; cbn [fst snd].
    split; intros [A A']; (split; [exact A|]); [apply (own_kind g n k B A); exact A'|].
    apply (own_kind g n k B A); exact A'. }
  assert (Z : d = []).
  { destruct d as [|n d]; [reflexivity|exfalso].
    destruct (M UndefinedCluster (n :: d) eq_refl) as [_ L].
    destruct (proj1 (L n) (or_introl eq_refl)) as [A A']; cbn [fst snd] in A, A'.
    destruct A' as [A'|A'].
    - destruct (kindOf g n); discriminate A'.
    - destruct (b_own g B n _ A A') as [Q|[_ Q]]; [destruct (kindOf g n); discriminate Q|cbn in Q; lia]. }
  subst d. exists out, o, a, b. split; [exact E|]. split; [rewrite T; reflexivity|].
  split; [apply (Kind KOp); reflexivity|]. split; [apply (Kind KConst); reflexivity|apply (Kind KInput); reflexivity].
Qed.
Print Assumptions C109_clusters.

(** Inside ExprGraph there is one cluster for each further group, with the operations of that
    group, each once. *)
Theorem C109_subclusters visit g : (forall l, Permutation (visit l) l) -> built g ->
  exists out, generate visit g = Ok out /\ NoDup (map fst (xsubs out)) /\
    (forall x, In x (map fst (xsubs out)) <-> exists n, In n (nodes g) /\ In x (groupsOf g n) /\ 4 <= gid x) /\
    (forall x l, In (x, l) (xsubs out) -> lists (fun n => In n (nodes g) /\ In x (groupsOf g n)) l).
Proof.
  intros V B. destruct (generate_ok visit g V B) as (out & c & E & S & _ & _ & _ & _ & K & _ & U & C & D).
  exists out. split; [exact E|]. rewrite S. split; [exact D|].
  assert (Top : forall x, In x topKeys -> gid x < 4).
  { intros x [<-|[<-|[<-|[<-|[]]]]]; cbn; lia. }
  assert (HomeTop : forall k, In (home k) topKeys) by (intros []; cbn; auto).
  assert (FI : forall m, NoDup (map fst m) -> forall x l, In (x, l) m -> find m x = Some l).
  { induction m as [|[y k] m IH]; cbn [map fst find In]; intros N x l I; [contradiction|].
    inversion N as [|? ? N1 N2]; subst. destruct I as [I|I].
    - injection I as -> ->. rewrite group_eqb_refl. reflexivity.
    - destruct (group_eqb y x) eqn:Ex.
      + apply group_eqb_spec in Ex; subst. exfalso. apply N1. apply in_map_iff. exists (x, l); auto.
      + apply IH; assumption. }
  split.
  - intros x. split.
    + intros I. destruct (find (subs c) x) as [l|] eqn:F.
      2:{ apply find_None in F. contradiction. }
      destruct (U x l F) as (Z & NT & L). destruct l as [|n l]; [contradiction|].
      destruct (proj1 (proj2 L n) (or_introl eq_refl)) as [A A']; cbn [fst snd] in A, A'.
      exists n. split; [exact A|].
      destruct A' as [->|A']; [exfalso; apply NT, HomeTop|]. split; [exact A'|].
      destruct (b_own g B n x A A') as [->|[_ Q]]; [exfalso; apply NT, HomeTop|exact Q].
    + intros (n & A & A' & Q). destruct (C x n) as [T|T].
      * split; [exact A|right; exact A'].
      * apply Top in T. lia.
      * destruct (in_dec group_eq_dec x (map fst (subs c))) as [J|J]; [exact J|].
        apply find_None in J. contradiction.
  - intros x l I. destruct (U x l (FI _ D _ _ I)) as (Z & NT & N & L). split; [exact N|].
    intros n. rewrite L; cbn [fst snd]. split.
    + intros [A [->|A']]; [exfalso; apply NT, HomeTop|auto].
    + intros [A A']. auto.
Qed.
Print Assumptions C109_subclusters.

(** Exporting changes no more than the groups, and exporting again neither changes the groups
    further nor the nodes of any cluster. *)
Theorem C109_again visit visit2 g : (forall l, Permutation (visit l) l) -> (forall l, Permutation (visit2 l) l) ->
  built g -> exists out out2,
    generate visit g = Ok out /\
    generate visit2 (G (nodes g) (kindOf g) (xgroups out) (kids g)) = Ok out2 /\
    (forall n, In n (nodes g) -> forall x, In x (xgroups out n) <-> x = home (kindOf g n) \/ In x (groupsOf g n)) /\
    (forall n, xgroups out2 n = xgroups out n) /\
    (forall x, In x (map fst (xsubs out2)) <-> In x (map fst (xsubs out))) /\
    xgraph out2 = xgraph out.
Proof.
  intros V V2 B.
  destruct (generate_ok visit g V B) as (out & c & E & _ & _ & DN & _ & GF & _).
  assert (Vin : forall n, In n (visit (nodes g)) <-> In n (nodes g)).
  { intros n; split; apply Permutation_in; [apply V|symmetry; apply V]. }
  assert (GI : forall n, In n (nodes g) -> xgroups out n = upsert (groupsOf g n) (home (kindOf g n))).
  { intros n I. rewrite GF, (proj2 (mem_spec n _) (proj2 (Vin n) I)), groupsM_home. reflexivity. }
  assert (GX : forall n, In n (nodes g) -> forall x, In x (xgroups out n) <-> x = home (kindOf g n) \/ In x (groupsOf g n)).
  { intros n I x. rewrite (GI n I). apply upsert_in, own_unique; assumption. }
  set (g2 := G (nodes g) (kindOf g) (xgroups out) (kids g)).
  assert (B2 : built g2).
  { constructor; cbn [nodes kindOf groupsOf kids g2].
    - apply (b_ids g B).
    - apply (b_kids g B).
    - intros n I. rewrite (GI n I). apply upsert_once, (b_once g B n I).
    - intros n m x y In1 Im Ix Iy Exy. apply (GX n In1) in Ix. apply (GX m Im) in Iy.
      assert (Own : forall n' z, In n' (nodes g) -> z = home (kindOf g n') \/ In z (groupsOf g n') ->
                    (exists k, z = home k) \/ 4 <= gid z /\ In z (groupsOf g n')).
      { intros n' z I' [->|J]; [left; eexists; reflexivity|].
        destruct (b_own g B n' z I' J) as [->|[_ Q]]; [left; eexists; reflexivity|right; auto]. }
      destruct (Own n x In1 Ix) as [[k ->]|[Q1 J1]], (Own m y Im Iy) as [[k' ->]|[Q2 J2]].
      + destruct k, k'; cbn in Exy |- *; congruence.
      + pose proof (home_id k). lia.
      + pose proof (home_id k'). lia.
      + apply (b_names g B n m x y); assumption.
    - intros n x I J. apply (GX n I) in J. destruct J as [->|J]; [left; reflexivity|].
      apply (b_own g B n x I J). }
  destruct (generate_ok visit2 g2 V2 B2) as (out2 & c2 & E2 & _ & _ & _ & _ & GF2 & _).
  destruct (C109_subclusters visit g V B) as (o & Eo & _ & S1 & _).
  destruct (C109_subclusters visit2 g2 V2 B2) as (o2 & Eo2 & _ & S2 & _).
  rewrite E in Eo; injection Eo as <-. rewrite E2 in Eo2; injection Eo2 as <-.
  exists out, out2. split; [exact E|]. split; [exact E2|]. split; [exact GX|]. split; [|split].
  - intros n. rewrite GF2. cbn [nodes groupsOf kindOf g2].
    destruct (mem n (visit2 (nodes g))) eqn:Mn; [|reflexivity].
    apply mem_spec in Mn. apply (Permutation_in _ (V2 _)) in Mn.
    rewrite groupsM_home. unfold upsert at 1.
    rewrite (proj2 (has_id _ _)); [reflexivity|]. apply in_map_iff. exists (home (kindOf g n)).
    split; [reflexivity|]. apply (GX n Mn). left; reflexivity.
  - intros x. rewrite S1, S2; cbn [nodes groupsOf g2]. split.
    + intros (n & I & J & Q). exists n. split; [exact I|]. split; [|exact Q].
      apply (GX n I) in J. destruct J as [->|J]; [pose proof (home_id (kindOf g n)); lia|exact J].
    + intros (n & I & J & Q). exists n. split; [exact I|]. split; [|exact Q]. apply (GX n I). auto.
  - unfold generate in E, E2.
    assert (Cp : forall ns d, copyAll d g2 ns = copyAll d g ns).
    { induction ns as [|u ns IH]; intros d; cbn [copyAll]; [reflexivity|]. cbn [kids g2].
      destruct (copyEdges d u (kids g u)); [apply IH|reflexivity|reflexivity]. }
    assert (Cg : copyGraph g2 = copyGraph g).
    { unfold copyGraph; cbn [nodes g2]. destruct (copyNodes _ (nodes g)); [apply Cp|reflexivity|reflexivity]. }
    rewrite Cg in E2. destruct (copyGraph g) as [d| |]; try discriminate.
    destruct (clusterAll (kindOf g) (groupsOf g) _ _) as [[gf cc]| |]; try discriminate.
    destruct (clusterAll (kindOf g2) (groupsOf g2) _ _) as [[gf2 cc2]| |]; try discriminate.
    injection E as <-. injection E2 as <-. reflexivity.
Qed.
Print Assumptions C109_again.

(** The exported graph has the nodes of the graph, and one edge from each node to each of its
    children. *)
Theorem C109_edges visit g : (forall l, Permutation (visit l) l) -> built g ->
  exists out, generate visit g = Ok out /\ dnodes (xgraph out) = nodes g /\
    lists (fun p => In (fst p) (nodes g) /\ In (snd p) (kids g (fst p))) (dedges (xgraph out)).
Proof.
  intros V B. destruct (generate_ok visit g V B) as (out & c & E & _ & _ & DN & L & _).
  exists out. auto.
Qed.
Print Assumptions C109_edges.

(** The graph of x - y (or x * x): nodes 0 and 1 are inputs, 2 the operation. *)
Definition exD (ks : list nat) : graph :=
  G [0; 1; 2] (fun n => if n <? 2 then KInput else KOp)
    (fun n => if n =? 2 then [Grp 6 "Convolution"] else []) (fun n => if n =? 2 then ks else []).
Lemma exD_built ks : (forall k, In k ks -> k < 2) -> built (exD ks).
Proof.
  intros H. constructor; cbn [nodes kids groupsOf kindOf exD].
  - repeat constructor; cbn; intuition discriminate.
  - intros u v Iu Iv. destruct (Nat.eqb_spec u 2) as [->|]; [|contradiction].
    apply H in Iv. split; [|lia]. destruct v as [|[|v]]; cbn; auto. lia.
  - intros n _. destruct (n =? 2); cbn; repeat constructor; auto.
  - intros n m x y _ _. destruct (n =? 2), (m =? 2); cbn; try tauto.
    intros [<-|[]] [<-|[]] _. reflexivity.
  - intros n x _. destruct (Nat.eqb_spec n 2) as [->|]; cbn; [|contradiction].
    intros [<-|[]]. right. split; [reflexivity|cbn; lia].
Qed.

(** The export does not tell which operand is which, nor how often a node is an operand:
    x - y and y - x have edges between the same nodes, and so have x * x and -x. *)
Theorem C109_edges_refuted : exists g1 g2, built g1 /\ built g2 /\ kids g1 2 <> kids g2 2 /\
  nodes g1 = nodes g2 /\
  (exists o1 o2, generate (fun l => l) g1 = Ok o1 /\ generate (fun l => l) g2 = Ok o2 /\
     forall p, In p (dedges (xgraph o1)) <-> In p (dedges (xgraph o2))) /\
  (exists g3 g4, built g3 /\ built g4 /\ kids g3 2 = [0; 0] /\ kids g4 2 = [0] /\
     exists o3 o4, generate (fun l => l) g3 = Ok o3 /\ generate (fun l => l) g4 = Ok o4 /\
     xgraph o3 = xgraph o4 /\ xtops o3 = xtops o4 /\ xsubs o3 = xsubs o4).
Proof.
  exists (exD [0; 1]), (exD [1; 0]).
  split; [apply exD_built; cbn; intros k [<-|[<-|[]]]; lia|].
  split; [apply exD_built; cbn; intros k [<-|[<-|[]]]; lia|].
  split; [cbn; discriminate|]. split; [reflexivity|]. split.
  - eexists; eexists. split; [vm_compute; reflexivity|]. split; [vm_compute; reflexivity|].
    cbn [xgraph dedges In]. intros p. split; intros [A|[A|[]]]; auto.
  - exists (exD [0; 0]), (exD [0]).
    split; [apply exD_built; cbn; intros k [<-|[<-|[]]]; lia|].
    split; [apply exD_built; cbn; intros k [<-|[]]; lia|].
    split; [reflexivity|]. split; [reflexivity|].
    eexists; eexists. split; [vm_compute; reflexivity|]. split; [vm_compute; reflexivity|].
    split; [reflexivity|split; reflexivity].
Qed.
Print Assumptions C109_edges_refuted.

Example C109_case : exists out, generate (@rev nat) (exD [0; 1]) = Ok out /\
  xtops out = [(UndefinedCluster, []); (ExprGraphCluster, [2]); (ConstantCluster, []); (InputCluster, [1; 0])] /\
  xsubs out = [(Grp 6 "Convolution", [2])] /\ dedges (xgraph out) = [(2, 0); (2, 1)] /\
  xgroups out 2 = [Grp 6 "Convolution"; ExprGraphCluster].
Proof. eexists. split; [vm_compute; reflexivity|]. repeat split; reflexivity. Qed.

(** ** Labels *)
Lemma prefix_app p s : String.prefix p (p ++ s) = true.
Proof.
  induction p as [|c p IH]; cbn [String.append String.prefix]; [destruct s; reflexivity|].
  destruct (ascii_dec c c); [exact IH|contradiction].
Qed.
Lemma prefix_cut : forall p s, String.prefix p s = true -> exists r, s = (p ++ r)%string.
Proof.
  induction p as [|c p IH]; intros s H; [exists s; reflexivity|].
  destruct s as [|d s]; cbn [String.prefix] in H; [discriminate|].
  destruct (ascii_dec c d) as [->|]; [|discriminate].
  destruct (IH s H) as [r ->]. exists r. reflexivity.
Qed.

(** The text read from left to right: "const", or one character. *)
Lemma escape_const r : escape ("const" ++ r) = ("const|" ++ escape r)%string.
Proof. unfold escape. destruct r; reflexivity. Qed.
Lemma escape_char c r : String.prefix "const" (String c r) = false ->
  escape (String c r) = (entity c ++ escape r)%string.
Proof. unfold escape. intros H. cbn [escapeF]. rewrite H. reflexivity. Qed.

Lemma string_strong (P : string -> Prop) :
  (forall s, (forall t, String.length t < String.length s -> P t) -> P s) -> forall s, P s.
Proof.
  intros H s. assert (G : forall n t, String.length t < n -> P t).
  { induction n as [|n IH]; intros t L; [lia|]. apply H. intros u Lu. apply IH. lia. }
  apply (G (S (String.length s))). lia.
Qed.
Lemma escape_ind (P : string -> string -> Prop) :
  P EmptyString EmptyString ->
  (forall r, P r (escape r) -> P ("const" ++ r)%string ("const|" ++ escape r)%string) ->
  (forall c r, String.prefix "const" (String c r) = false -> P r (escape r) ->
     P (String c r) (entity c ++ escape r)%string) ->
  forall s, P s (escape s).
Proof.
  intros H0 H1 H2. apply string_strong. intros s IH.
  destruct s as [|c r]; [exact H0|].
  destruct (String.prefix "const" (String c r)) eqn:E.
  - destruct (prefix_cut _ _ E) as [t Et]. rewrite Et, escape_const. apply H1.
    apply IH. rewrite Et. cbn [String.append String.length]. lia.
  - rewrite (escape_char _ _ E). apply H2; [exact E|]. apply IH. cbn [String.length]. lia.
Qed.

(** The first character of a replacement. *)
Lemma entity_cases c : entity c = String c EmptyString \/ exists t, entity c = String "&" t.
Proof.
  unfold entity. repeat (destruct (Ascii.eqb c _); [right; eexists; reflexivity|]). left; reflexivity.
Qed.
(** Letters other than c are found after escaping only where they were before. *)
Lemma prefix_escape : forall w s, (forall a, In a (chars w) -> In a (chars "onst"%string)) ->
  String.prefix w (escape s) = true -> String.prefix w s = true.
Proof.
  induction w as [|a w IH]; intros s L H; [destruct s; reflexivity|].
  assert (La : In a (chars "onst"%string)) by (apply L; left; reflexivity).
  destruct s as [|c r]; [exact H|].
  destruct (String.prefix "const" (String c r)) eqn:E.
  - destruct (prefix_cut _ _ E) as [t Et]. rewrite Et, escape_const in H.
    cbn [String.append String.prefix] in H. destruct (ascii_dec a "c") as [->|]; [|discriminate].
    exfalso. cbn in La. intuition discriminate.
  - rewrite (escape_char _ _ E) in H. destruct (entity_cases c) as [Ec|[t Ec]]; rewrite Ec in H.
    + cbn [String.append String.prefix] in H |- *. destruct (ascii_dec a c); [|discriminate].
      apply IH; [|exact H]. intros b Ib. apply L; right; exact Ib.
    + cbn [String.append String.prefix] in H. destruct (ascii_dec a "&") as [->|]; [|discriminate].
      exfalso. cbn in La. intuition discriminate.
Qed.

Lemma read_const t : readBack ("const|" ++ t) = ("const" ++ readBack t)%string.
Proof. unfold readBack. destruct t; reflexivity. Qed.
Lemma read_plain c t : c <> "&"%char -> String.prefix "const|" (String c t) = false ->
  readBack (String c t) = String c (readBack t).
Proof.
  intros H1 H2. unfold readBack. cbn [readBackF]. cbn [String.prefix].
  destruct (ascii_dec "&" c) as [<-|_]; [contradiction|].
  cbn [String.prefix] in H2. rewrite H2. reflexivity.
Qed.
Lemma read_entity c t : readBack (entity c ++ t) = String c (readBack t) \/
  (entity c = String c EmptyString /\ c <> "&"%char).
Proof.
  unfold entity.
  repeat (match goal with |- context [Ascii.eqb c ?d] => destruct (Ascii.eqb_spec c d) as [->|?] end;
          [left; unfold readBack; destruct t; reflexivity|]).
  right. split; [reflexivity|assumption].
Qed.

(** The label shows a name and an operation exactly: the escaped text reads back as the
    original, for every text. *)
Theorem C109_escape_reads_back s : readBack (escape s) = s.
Proof.
  apply (escape_ind (fun s e => readBack e = s)).
  - reflexivity.
  - intros r IH. rewrite read_const, IH. reflexivity.
  - intros c r E IH. destruct (read_entity c (escape r)) as [->|[-> D]]; [rewrite IH; reflexivity|].
    cbn [String.append]. rewrite read_plain, IH; [reflexivity|exact D|].
    destruct (String.prefix "const|" (String c (escape r))) eqn:F; [|reflexivity].
    exfalso. cbn [String.prefix] in F. destruct (ascii_dec "c" c) as [<-|]; [|discriminate].
    assert (W : String.prefix "onst" (escape r) = true).
    { destruct (prefix_cut "onst|" (escape r) F) as [t ->]. 
      change ("onst|" ++ t)%string with ("onst" ++ String "|" t)%string. apply prefix_app. }
    apply prefix_escape in W; [|auto]. cbn [String.prefix] in E.
    destruct (ascii_dec "c" "c"); [congruence|contradiction].
Qed.
Print Assumptions C109_escape_reads_back.

Lemma chars_app a b : chars (a ++ b) = (chars a ++ chars b)%list.
Proof. induction a as [|c a IH]; cbn [String.append chars app]; [reflexivity|rewrite IH; reflexivity]. Qed.

(** No quote, brace, or angle bracket of a name reaches the label. *)
Theorem C109_escape_clean s c : In c (chars (escape s)) ->
  ~ In c ["'"; "<"; ">"; "{"; "}"; """"]%char.
Proof.
  revert c. apply (escape_ind (fun s e => forall c, In c (chars e) -> ~ In c ["'"; "<"; ">"; "{"; "}"; """"]%char)).
  - intros c [].
  - intros r IH c. rewrite chars_app, in_app_iff. intros [I|I]; [|apply IH; exact I].
    cbn in I. intros J. cbn in J. intuition (subst; discriminate).
  - intros d r E IH c. rewrite chars_app, in_app_iff. intros [I|I]; [|apply IH; exact I].
    revert I. unfold entity.
    repeat (match goal with |- context [Ascii.eqb d ?x] => destruct (Ascii.eqb_spec d x) as [->|?] end;
            [cbn; intros I J; intuition (subst; discriminate)|]).
    cbn. intros [<-|[]] J. intuition congruence.
Qed.
Print Assumptions C109_escape_clean.

Lemma bars_app a b : bars (a ++ b) = bars a + bars b.
Proof. unfold bars. rewrite chars_app. apply count_occ_app. Qed.
Lemma bars_entity c : bars (entity c) = bars (String c EmptyString).
Proof.
  unfold entity.
  repeat (match goal with |- context [Ascii.eqb c ?x] => destruct (Ascii.eqb_spec c x) as [->|?] end;
          [reflexivity|]).
  reflexivity.
Qed.
Lemma holds_cons c r w : holds r w -> holds (String c r) w.
Proof. intros (a & b & ->). exists (String c a), b. reflexivity. Qed.
Lemma bars_cons c r : bars (String c r) = bars (String c EmptyString) + bars r.
Proof. apply (bars_app (String c EmptyString) r). Qed.
Lemma bars_zero s : bars s = 0 <-> ~ In "|"%char (chars s).
Proof. unfold bars. symmetry. apply count_occ_not_In. Qed.

(** An escaped text is one field of the label exactly if it has neither a bar nor "const". *)
Theorem C109_field s : bars (escape s) = 0 <-> ~ In "|"%char (chars s) /\ ~ holds s "const".
Proof.
  apply (escape_ind (fun s e => bars e = 0 <-> ~ In "|"%char (chars s) /\ ~ holds s "const")).
  - split; [intros _|reflexivity]. split; [intros []|]. intros (a & b & H).
    destruct a; discriminate H.
  - intros r _. split.
    + rewrite bars_app. intros H. exfalso.
      assert (B : bars "const|" = 1) by reflexivity. lia.
    + intros [_ H]. exfalso. apply H. exists EmptyString, r. reflexivity.
  - intros c r E IH. rewrite bars_app, bars_entity, <- bars_zero, (bars_cons c r).
    rewrite <- bars_zero in IH. split.
    + intros H. split; [lia|]. intros (a & b & Hab). destruct a as [|d a].
      * rewrite Hab in E. pose proof (prefix_app "const" b) as Pb. cbn [String.append] in E, Pb. congruence.
      * cbn [String.append] in Hab. injection Hab as -> ->.
        apply (proj1 IH); [lia|]. exists a, b. reflexivity.
    + intros [H1 H2]. assert (bars (escape r) = 0); [|lia].
      apply IH. split; [lia|]. intros W. apply H2, holds_cons, W.
Qed.
Print Assumptions C109_field.

(** The label has the intended six fields exactly if neither the name nor the operation has
    a bar or "const" in it. *)
Theorem C109_label name id op shape : bars id = 0 -> bars shape = 0 ->
  (bars (label name id op shape) = 5 <->
   (~ In "|"%char (chars name) /\ ~ holds name "const") /\ (~ In "|"%char (chars op) /\ ~ holds op "const")).
Proof.
  intros H1 H2. rewrite <- !C109_field. unfold label. rewrite !bars_app, H1, H2.
  assert (B1 : bars """{{" = 0) by reflexivity. assert (B2 : bars "|" = 1) by reflexivity.
  assert (B3 : bars "}|{Op|" = 2) by reflexivity. assert (B4 : bars "}|{Shape|" = 2) by reflexivity.
  assert (B5 : bars "}}""" = 0) by reflexivity. lia.
Qed.
Print Assumptions C109_label.

(** A bar and a backslash of a name reach the label as they are: the name "a|b" makes a field
    of its own, and a name that ends with a backslash puts it before the bar that ends the
    field, which graphviz then takes for a character of the name. *)
Theorem C109_label_refuted : exists n1 n2 id op shape,
  bars (label n1 id op shape) = 6 /\ ~ holds n1 "const" /\
  holds (label n2 id op shape) "\|" /\ bars (label n2 id op shape) = 5.
Proof.
  exists "a|b"%string, "a\"%string, "0x1"%string, "+"%string, "()"%string.
  split; [reflexivity|]. split.
  - intros (a & b & H). destruct a as [|? [|? [|? [|? a]]]]; discriminate H.
  - split; [|reflexivity]. exists """{{a"%string. eexists. reflexivity.
Qed.
Print Assumptions C109_label_refuted.

Example C109_label_case : label "x{0}" "0x1" "const 3" "()" = """{{x&#123;0&#125;|0x1}|{Op|const| 3}|{Shape|()}}"""%string.
Proof. reflexivity. Qed.
