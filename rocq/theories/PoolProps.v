(** Property theorems C23, C24, C25. *)
From Coq Require Import Arith ZArith Reals List Bool Lia Lra.
From Verif Require Import Sums LoopModel LoopProofs ConvModel ConvSpec ConvProofs PoolModel PoolSpec PoolProofs AvgProofs.
Import ListNotations.
Local Open Scope nat_scope.

(** ** C23 *)

(** Every accepted call succeeds.  Every output is at least everything in its
    window; it is the value at the remembered pixel of the window, unless nothing
    there is above the starting value. *)
Lemma C23_general :
  forall (V : Type) (gtb : V -> V -> bool) (low : V) (op : poolOp) (planes inH inW : nat) (data : list V),
    strict_order gtb -> poolOk op inH inW = true -> length data = planes * (inH * inW) ->
    exists o m, maxPoolDo V gtb low op planes inH inW data = Some (o, m) /\
      length o = planes * (pooledH op inH * pooledW op inW) /\ length m = length o /\
      forall k ph pw, k < planes -> ph < pooledH op inH -> pw < pooledW op inW ->
        exists x z, nth_error o ((k * pooledH op inH + ph) * pooledW op inW + pw) = Some x /\
                    nth_error m ((k * pooledH op inH + ph) * pooledW op inW + pw) = Some z /\
          (forall i v, windowOf op inH inW ph pw i -> nth_error data (k * (inH * inW) + i) = Some v -> gtb v x = false) /\
          ((exists i, z = Z.of_nat i /\ windowOf op inH inW ph pw i /\
                      nth_error data (k * (inH * inW) + i) = Some x /\ gtb x low = true) \/
           (x = low /\ z = (-1)%Z)).
Proof. intros. apply maxPoolDo_ok; assumption. Qed.

(** With one padding per direction, smaller than the kernel, and values above the
    starting value, each output is the maximum over its window and the mask points
    to a pixel of the window attaining it. *)
Theorem C23_max_of_each_window :
  forall (V : Type) (gtb : V -> V -> bool) (low : V) (kh kw padH padW sh sw planes inH inW : nat) (data : list V),
    strict_order gtb -> (forall v, In v data -> gtb v low = true) ->
    1 <= sh -> 1 <= sw -> 1 <= inH -> 1 <= inW -> padH < kh -> padW < kw ->
    kh <= inH + padH + padH -> kw <= inW + padW + padW ->
    length data = planes * (inH * inW) ->
    let outH := (inH + padH + padH - kh) / sh + 1 in
    let outW := (inW + padW + padW - kw) / sw + 1 in
    exists o m, maxPool2D V gtb low kh kw [padH; padW] sh sw planes inH inW data = Some (o, m) /\
      length o = planes * (outH * outW) /\ length m = length o /\
      forall k ph pw, k < planes -> ph < outH -> pw < outW ->
        exists x i, nth_error o ((k * outH + ph) * outW + pw) = Some x /\
                    nth_error m ((k * outH + ph) * outW + pw) = Some (Z.of_nat i) /\
          in_window kh kw padH padW sh sw inH inW ph pw i /\
          nth_error data (k * (inH * inW) + i) = Some x /\
          (forall i' v, in_window kh kw padH padW sh sw inH inW ph pw i' ->
             nth_error data (k * (inH * inW) + i') = Some v -> gtb v x = false).
Proof.
  intros V gtb low kh kw padH padW sh sw planes inH inW data So Hlow Hs1 Hs2 HH HW Hp1 Hp2 Hk1 Hk2 Hl outH outW.
  set (op := {| ph_ := kh; pw_ := kw; padNorth := padH; padSouth := padH; padWest := padW; padEast := padW;
                explicitPadding := false; pstrideH := sh; pstrideW := sw |}).
  assert (Ok : poolOk op inH inW = true).
  { unfold poolOk, op. cbn [ph_ pw_ padNorth padSouth padWest padEast pstrideH pstrideW]. rewrite !andb_true_iff, !Nat.leb_le. lia. }
  destruct (C23_general V gtb low op planes inH inW data So Ok Hl) as (o & m & E & Lo & Lm & P).
  exists o, m. split; [unfold maxPool2D; cbn [newPoolOp]; fold op; rewrite Ok; exact E|].
  split; [exact Lo|]. split; [exact Lm|]. intros k ph pw Hk Hph Hpw.
  destruct (P k ph pw Hk Hph Hpw) as (x & z & Ex & Ez & Mx & [(i & -> & Wi & Xi & _)|[-> ->]]).
  - exists x, i. split; [exact Ex|]. split; [exact Ez|]. split; [exact Wi|]. split; [exact Xi|exact Mx].
  - exfalso. destruct (window_not_empty kh kw padH padW sh sw inH inW ph pw) as [i Hi]; try assumption.
    assert (Hlt : i < inH * inW) by (destruct Hi as (r & c & ? & ? & -> & _); nia).
    assert (exists v, nth_error data (k * (inH * inW) + i) = Some v) as [v Hv] by (apply aget_some; nia).
    specialize (Mx i v Hi Hv). rewrite (Hlow v (nth_error_In _ _ Hv)) in Mx. discriminate.
Qed.

(** The gradient operator is the adjoint of selecting the remembered pixels: for
    every image u, <u, gradient> = <u at the remembered pixels, g>. *)
Theorem C23_gradient_is_the_adjoint :
  forall (A : Type) (CR : CRing A) (planes inH inW outH outW : nat) (g : list A) (mask : list Z),
    length g = planes * (outH * outW) -> length mask = planes * (outH * outW) ->
    (forall z, In z mask -> (0 <= z < Z.of_nat (inH * inW))%Z) ->
    exists r, maxDiffDo planes inH inW outH outW g mask = Some r /\ length r = planes * (inH * inW) /\
      forall u s, length u = planes * (inH * inW) -> length s = length g ->
        (forall k j z, k < planes -> j < outH * outW -> nth_error mask (k * (outH * outW) + j) = Some z ->
           nth_error s (k * (outH * outW) + j) = nth_error u (k * (inH * inW) + Z.to_nat z)) ->
        dot u r = dot s g.
Proof. intros. apply maxDiffDo_ok; assumption. Qed.

(** Forward and backward together: the derivative of the outputs in the direction
    u, the selection held fixed, against g. *)
Theorem C23_forward_then_gradient :
  forall (kh kw padH padW sh sw planes inH inW : nat) (data g u : list R) (low : R),
    (forall v, In v data -> (low < v)%R) ->
    1 <= sh -> 1 <= sw -> 1 <= inH -> 1 <= inW -> padH < kh -> padW < kw ->
    kh <= inH + padH + padH -> kw <= inW + padW + padW ->
    length data = planes * (inH * inW) -> length u = planes * (inH * inW) ->
    let outH := (inH + padH + padH - kh) / sh + 1 in
    let outW := (inW + padW + padW - kw) / sw + 1 in
    length g = planes * (outH * outW) ->
    exists o m r s,
      maxPool2D R (fun x y => if Rlt_dec y x then true else false) low kh kw [padH; padW] sh sw planes inH inW data = Some (o, m) /\
      maxDiffDo planes inH inW outH outW g m = Some r /\
      length s = length o /\
      (forall k ph pw, k < planes -> ph < outH -> pw < outW ->
         exists i, in_window kh kw padH padW sh sw inH inW ph pw i /\
           nth_error o ((k * outH + ph) * outW + pw) = nth_error data (k * (inH * inW) + i) /\
           nth_error s ((k * outH + ph) * outW + pw) = nth_error u (k * (inH * inW) + i)) /\
      dot u r = dot s g.
Proof.
  intros kh kw padH padW sh sw planes inH inW data g u low Hlow Hs1 Hs2 HH HW Hp1 Hp2 Hk1 Hk2 Hl Hu outH outW Hg.
  set (gtb := fun x y => if Rlt_dec y x then true else false).
  assert (So : strict_order gtb).
  { unfold gtb. split.
    - intro x. destruct (Rlt_dec x x) as [L|]; [lra|reflexivity].
    - intros x o y. destruct (Rlt_dec o x); [discriminate|]. destruct (Rlt_dec o y); [|discriminate].
      intros _ _. destruct (Rlt_dec y x); [lra|reflexivity]. }
  destruct (C23_max_of_each_window R gtb low kh kw padH padW sh sw planes inH inW data) as (o & m & E & Lo & Lm & P);
    try assumption.
  { intros v Hv. unfold gtb. destruct (Rlt_dec low v); [reflexivity|]. specialize (Hlow v Hv). lra. }
  fold outH outW in Lo, P.
  assert (Pos : forall n, n < planes * (outH * outW) -> exists k ph pw,
     k < planes /\ ph < outH /\ pw < outW /\ n = (k * outH + ph) * outW + pw).
  { intros n Hn. destruct (at3_cover planes outH outW n) as (k & i & j & H1 & H2 & H3 & H4); [lia|].
    exists k, i, j. auto. }
  assert (Hz : forall z, In z m -> (0 <= z < Z.of_nat (inH * inW))%Z).
  { intros z Hz. apply In_nth_error in Hz. destruct Hz as [n Hn].
    destruct (Pos n) as (k & ph & pw & Hk & Hph & Hpw & ->).
    { rewrite <- Lo, <- Lm. apply nth_error_Some. rewrite Hn. discriminate. }
    destruct (P k ph pw Hk Hph Hpw) as (x & i & _ & Em & Wi & _). rewrite Hn in Em. injection Em as ->.
    destruct Wi as (r & c & ? & ? & -> & _). nia. }
  destruct (C23_gradient_is_the_adjoint R CRing_R planes inH inW outH outW g m) as (r & Er & Lr & D); [exact Hg|lia|exact Hz|].
  set (s := flat_map (fun k => map (fun j => nth (k * (inH * inW) + Z.to_nat (nth (k * (outH * outW) + j) m 0%Z)) u 0%R)
                                (seq 0 (outH * outW))) (seq 0 planes)).
  assert (Ls : length s = planes * (outH * outW)).
  { apply flat_map_seq_length. intros. rewrite map_length, seq_length. reflexivity. }
  assert (Sn : forall k j z, k < planes -> j < outH * outW -> nth_error m (k * (outH * outW) + j) = Some z ->
     nth_error s (k * (outH * outW) + j) = nth_error u (k * (inH * inW) + Z.to_nat z)).
  { intros k j z Hk Hj Ez. unfold s.
    rewrite (nth_flat_map_seq _ (outH * outW)); [|intros; rewrite map_length, seq_length; reflexivity|exact Hk|exact Hj].
    rewrite nth_error_map, nth_seq0 by exact Hj. cbn [option_map].
    rewrite (nth_error_nth m _ 0%Z Ez). symmetry. apply nth_error_nth'. 
    assert (B := Hz z (nth_error_In _ _ Ez)). nia. }
  exists o, m, r, s. split; [exact E|]. split; [exact Er|]. split; [lia|]. split.
  - intros k ph pw Hk Hph Hpw. destruct (P k ph pw Hk Hph Hpw) as (x & i & Eo & Em & Wi & Ed & _).
    exists i. split; [exact Wi|]. split; [rewrite Eo, Ed; reflexivity|].
    replace ((k * outH + ph) * outW + pw) with (k * (outH * outW) + (ph * outW + pw)) in * by nia.
    rewrite (Sn k (ph * outW + pw) (Z.of_nat i)) by (try exact Em; nia). rewrite Nat2Z.id. reflexivity.
  - apply D; [exact Hu|lia|exact Sn].
Qed.

(** Four paddings: the windows are those of an image extended by the second
    (bottom) and the fourth (right) padding at the top and at the left. *)
Theorem C23_four_paddings_shift_by_bottom_and_right :
  forall (V : Type) (gtb : V -> V -> bool) (low : V) (kh kw n s w e sh sw planes inH inW : nat) (data : list V),
    strict_order gtb -> 1 <= sh -> 1 <= sw ->
    kh <= inH + n + s -> kw <= inW + w + e -> length data = planes * (inH * inW) ->
    let outH := (inH + s + n - kh) / sh + 1 in
    let outW := (inW + e + w - kw) / sw + 1 in
    exists o m, maxPool2D V gtb low kh kw [n; s; w; e] sh sw planes inH inW data = Some (o, m) /\
      forall k ph pw, k < planes -> ph < outH -> pw < outW ->
        exists x, nth_error o ((k * outH + ph) * outW + pw) = Some x /\
          (forall i v, in_window kh kw s e sh sw inH inW ph pw i ->
             nth_error data (k * (inH * inW) + i) = Some v -> gtb v x = false) /\
          (x = low \/ exists i, in_window kh kw s e sh sw inH inW ph pw i /\
                                nth_error data (k * (inH * inW) + i) = Some x).
Proof.
  intros V gtb low kh kw n s w e sh sw planes inH inW data So Hs1 Hs2 Hk1 Hk2 Hl outH outW.
  set (op := {| ph_ := kh; pw_ := kw; padNorth := n; padSouth := s; padWest := w; padEast := e;
                explicitPadding := true; pstrideH := sh; pstrideW := sw |}).
  assert (Ok : poolOk op inH inW = true).
  { unfold poolOk, op. cbn [ph_ pw_ padNorth padSouth padWest padEast pstrideH pstrideW]. rewrite !andb_true_iff, !Nat.leb_le. lia. }
  destruct (C23_general V gtb low op planes inH inW data So Ok Hl) as (o & m & E & _ & _ & P).
  exists o, m. split; [unfold maxPool2D; cbn [newPoolOp]; fold op; rewrite Ok; exact E|].
  intros k ph pw Hk Hph Hpw. destruct (P k ph pw Hk Hph Hpw) as (x & z & Ex & _ & Mx & D).
  exists x. split; [exact Ex|]. split; [exact Mx|].
  destruct D as [(i & _ & Wi & Xi & _)|[-> _]]; [right; exists i; auto|left; reflexivity].
Qed.

Definition zgt (x y : Z) : bool := (y <? x)%Z.
Lemma zgt_order : strict_order zgt.
Proof. unfold zgt. split; intros; try apply Z.ltb_irrefl. apply Z.ltb_ge in H. apply Z.ltb_lt in H0. apply Z.ltb_ge. lia. Qed.

(** A 3x3 image, 2x2 windows, padding 1, stride 2; gradient. *)
Example C23_case :
  maxPool2D Z zgt (-100)%Z 2 2 [1; 1] 2 2 1 3 3 [1; 2; 3; 4; 9; 6; 7; 8; 5]%Z
    = Some ([1; 3; 7; 9]%Z, [0; 2; 6; 4]%Z) /\
  maxDiffDo 1 3 3 2 2 [10; 20; 30; 40]%Z [0; 2; 6; 4]%Z = Some [10; 0; 20; 0; 40; 0; 30; 0; 0]%Z.
Proof. split; vm_compute; reflexivity. Qed.

(** One column of padding at the left only ([0;0;1;0]): the first window should be
    {pad, x0}, but the output is as without shift. *)
Theorem C23_four_paddings_shift_by_top_and_left_refuted :
  ~ (forall (kh kw n s w e sh sw planes inH inW : nat) (data o : list Z) (m : list Z),
       maxPool2D Z zgt (-100)%Z kh kw [n; s; w; e] sh sw planes inH inW data = Some (o, m) ->
       forall ph pw x, ph < (inH + s + n - kh) / sh + 1 -> pw < (inW + e + w - kw) / sw + 1 ->
         nth_error o (ph * ((inW + e + w - kw) / sw + 1) + pw) = Some x ->
         x = (-100)%Z \/ exists i, in_window kh kw n w sh sw inH inW ph pw i /\ nth_error data i = Some x).
Proof.
  intro H.
  assert (E : maxPool2D Z zgt (-100)%Z 1 2 [0; 0; 1; 0] 1 1 1 1 2 [5; 7]%Z = Some ([7; 7]%Z, [1; 1]%Z)) by (vm_compute; reflexivity).
  destruct (H _ _ _ _ _ _ _ _ _ _ _ _ _ _ E 0 0 7%Z) as [C|(i & Wi & Hi)].
  - cbn; lia.
  - cbn; lia.
  - reflexivity.
  - discriminate.
  - destruct Wi as (r & c & Hr & Hc & -> & _ & Hw). assert (r = 0) by lia. assert (c = 0) by lia. subst. discriminate.
Qed.

(** A window that lies in the padding leaves the starting value and the mask -1,
    and the gradient panics. *)
Theorem C23_empty_window :
  forall (A : Type) (CR : CRing A) (inH inW outH outW : nat) (g : list A) (mask : list Z),
    length g = outH * outW -> length mask = outH * outW -> In (-1)%Z mask ->
    maxDiffPlane (inH * inW) outH outW g mask = None.
Proof. intros A CR inH inW outH outW g mask Hg Hm Hin. eapply maxDiffPlane_panics; eauto. lia. Qed.
Example C23_empty_window_case :
  maxPool2D Z zgt (-100)%Z 1 1 [0; 1] 1 1 1 1 2 [5; 7]%Z = Some ([-100; 5; 7; -100]%Z, [-1; 0; 1; -1]%Z).
Proof. vm_compute. reflexivity. Qed.

(** ** C24 *)

(** Each output of AveragePool2D is the sum over the zero-padded window divided by
    the width of the input. *)
Theorem C24_divides_by_the_input_width :
  forall (kh kw padH padW sh sw planes inH inW : nat) (data : list R),
    1 <= sh -> 1 <= sw -> kh <= inH + padH + padH -> kw <= inW + padW + padW ->
    length data = planes * (inH * inW) ->
    let outH := (inH + padH + padH - kh) / sh + 1 in
    let outW := (inW + padW + padW - kw) / sw + 1 in
    exists o m, averagePool2D kh kw [padH; padW] sh sw planes inH inW data = Some (o, m) /\
      forall k ph pw, k < planes -> ph < outH -> pw < outW ->
        nth_error o ((k * outH + ph) * outW + pw)
        = Some (window_sum kh kw padH padW sh sw inH inW ph pw (firstn (inH * inW) (skipn (k * (inH * inW)) data))
                / INR inW)%R.
Proof.
  intros kh kw padH padW sh sw planes inH inW data Hs1 Hs2 Hk1 Hk2 Hl outH outW.
  set (op := {| ph_ := kh; pw_ := kw; padNorth := padH; padSouth := padH; padWest := padW; padEast := padW;
                explicitPadding := false; pstrideH := sh; pstrideW := sw |}).
  assert (Ok : poolOk op inH inW = true).
  { unfold poolOk, op. cbn [ph_ pw_ padNorth padSouth padWest padEast pstrideH pstrideW]. rewrite !andb_true_iff, !Nat.leb_le. lia. }
  set (P := pairs outH outW).
  set (val := fun k p => (lsum (map (fun i => nth i (chunk data (inH * inW) k) 0%R) (winList op inH inW (fst p) (snd p))) / INR inW)%R).
  eexists _, _. split.
  - unfold averagePool2D. cbn [newPoolOp]. fold op. rewrite Ok. unfold avgPoolDo.
    apply (overPlanes_ok _ _ _ _ (fun k => map (val k) P) (fun k => map (fun p => lastZ (winList op inH inW (fst p) (snd p)) (-1)%Z) P)).
    + exact Hl.
    + intros k Hk. rewrite avgPlane_ok; [reflexivity|]. eapply chunk_length; eauto.
  - intros k ph pw Hk Hph Hpw. rewrite (plane_entry _ _ k ph pw outH outW val) by (auto || (intros; reflexivity)).
    f_equal. unfold val. cbn [fst snd]. f_equal. exact (winList_sum (CR:=CRing_R) op inH inW ph pw (chunk data (inH * inW) k)).
Qed.

(** That is the mean over the kernel exactly when the sum is 0 or the kernel has as
    many positions as the input is wide. *)
Theorem C24_is_the_mean_iff :
  forall (kh kw padH padW sh sw inH inW ph pw : nat) (plane : list R),
    1 <= kh -> 1 <= kw -> 1 <= inW ->
    let s := window_sum kh kw padH padW sh sw inH inW ph pw plane in
    (s / INR inW = s / INR (kh * kw))%R <-> s = 0%R \/ kh * kw = inW.
Proof.
  intros kh kw padH padW sh sw inH inW ph pw plane Hk Hw Hi s.
  assert (P1 : (0 < INR inW)%R) by (apply lt_0_INR; lia).
  assert (P2 : (0 < INR (kh * kw))%R) by (apply lt_0_INR; nia).
  split.
  - intro H. destruct (Req_dec s 0) as [|N]; [left; assumption|right].
    apply INR_eq. apply Rmult_eq_reg_l with (r := (s / (INR inW * INR (kh * kw)))%R).
    + transitivity (s / INR inW)%R; [field; lra|]. rewrite H. field. lra.
    + unfold Rdiv. apply Rmult_integral_contrapositive_currified; [exact N|].
      apply Rinv_neq_0_compat. apply Rmult_integral_contrapositive_currified; lra.
  - intros [E|E]; [rewrite E; unfold Rdiv; rewrite !Rmult_0_l; reflexivity|].
    rewrite <- E. reflexivity.
Qed.

(** The mean is claimed by the name; a 1x2 window on an image of width 3. *)
Theorem C24_average_refuted :
  ~ (forall (kh kw sh sw inH inW : nat) (data o : list R) (m : list Z),
       averagePool2D kh kw [0; 0] sh sw 1 inH inW data = Some (o, m) ->
       forall ph pw x, ph < (inH - kh) / sh + 1 -> pw < (inW - kw) / sw + 1 ->
         nth_error o (ph * ((inW - kw) / sw + 1) + pw) = Some x ->
         x = (window_sum kh kw 0 0 sh sw inH inW ph pw data / INR (kh * kw))%R).
Proof.
  intro H.
  destruct (C24_divides_by_the_input_width 1 2 0 0 1 1 1 1 3 [1; 1; 1]%R) as (o & m & E & P); try lia; [reflexivity|].
  specialize (P 0 0 0 ltac:(lia) ltac:(cbn; lia) ltac:(cbn; lia)).
  specialize (H _ _ _ _ _ _ _ _ _ E 0 0 _ ltac:(cbn; lia) ltac:(cbn; lia) P).
  assert (Sw : window_sum 1 2 0 0 1 1 1 3 0 0 [1; 1; 1]%R = 2%R).
  { unfold window_sum. cbn [sum]. unfold pixel. cbn -[Rplus]. change (Pos.to_nat 1) with 1%nat. cbn -[Rplus]. lra. }
  cbn [Nat.mul skipn firstn Nat.add] in H. rewrite Sw in H.
  change (INR 3) with (1 + 1 + 1)%R in H. change (INR 2) with (1 + 1)%R in H. lra.
Qed.

(** AveragePool1D computes the maximum. *)
Theorem C24_AveragePool1D_is_max_pooling :
  forall (V : Type) (gtb : V -> V -> bool) (low : V) (kernel pad stride planes inH inW : nat) (data : list V),
    strict_order gtb -> (forall v, In v data -> gtb v low = true) ->
    1 <= stride -> 1 <= inH -> 1 <= inW -> pad < kernel -> kernel <= inW + pad + pad ->
    length data = planes * (inH * inW) ->
    let outW := (inW + pad + pad - kernel) / stride + 1 in
    exists o m, averagePool1D V gtb low kernel pad stride planes inH inW data = Some (o, m) /\
      forall k ph pw, k < planes -> ph < inH -> pw < outW ->
        exists x i, nth_error o ((k * inH + ph) * outW + pw) = Some x /\
          in_window 1 kernel 0 pad 1 stride inH inW ph pw i /\
          nth_error data (k * (inH * inW) + i) = Some x /\
          (forall i' v, in_window 1 kernel 0 pad 1 stride inH inW ph pw i' ->
             nth_error data (k * (inH * inW) + i') = Some v -> gtb v x = false).
Proof.
  intros V gtb low kernel pad stride planes inH inW data So Hlow Hs HH HW Hp Hk Hl outW.
  destruct (C23_max_of_each_window V gtb low 1 kernel 0 pad 1 stride planes inH inW data) as (o & m & E & _ & _ & P);
    try assumption; try lia.
  exists o, m. split; [exact E|]. intros k ph pw Hk' Hph Hpw.
  assert (EH : (inH + 0 + 0 - 1) / 1 + 1 = inH) by (rewrite Nat.div_1_r; lia). rewrite EH in P.
  destruct (P k ph pw Hk' Hph Hpw) as (x & i & H1 & _ & H2 & H3 & H4). exists x, i. auto.
Qed.
Example C24_AveragePool1D_case :
  averagePool1D Z zgt (-100)%Z 2 0 1 1 1 3 [1; 3; 4]%Z = Some ([3; 4]%Z, [1; 2]%Z).
Proof. vm_compute. reflexivity. Qed.
Theorem C24_AveragePool1D_averages_refuted :
  ~ (forall (kernel stride inW : nat) (data o m : list Z),
       averagePool1D Z zgt (-100)%Z kernel 0 stride 1 1 inW data = Some (o, m) ->
       forall x, nth_error o 0 = Some x ->
         (Z.of_nat kernel * x)%Z = lsum (firstn kernel data)).
Proof.
  intro H. specialize (H 2 1 3 _ _ _ C24_AveragePool1D_case 3%Z eq_refl). vm_compute in H. discriminate.
Qed.

(** The gradient of AveragePool2D with stride 1 and no padding is the adjoint of
    the forward map (which divides by the width); [m] is the mask left by the
    forward pass. *)
Theorem C24_gradient_adjoint_with_stride_1 :
  forall (kh kw inH inW : nat) (x u g o : list R) (m : list Z),
    1 <= kh <= inH -> 1 <= kw <= inW ->
    let op := {| ph_ := kh; pw_ := kw; padNorth := 0; padSouth := 0; padWest := 0; padEast := 0;
                 explicitPadding := false; pstrideH := 1; pstrideW := 1 |} in
    let outH := inH - kh + 1 in let outW := inW - kw + 1 in
    length x = inH * inW -> length u = inH * inW -> length g = outH * outW ->
    avgPlane op inH inW outH outW x = Some (o, m) ->
    exists r ou, avgDiffPlane op inH inW outH outW g m = Some r /\
                 avgPlane op inH inW outH outW u = Some (ou, m) /\ dot u r = dot ou g.
Proof.
  intros kh kw inH inW x u g o m Hk Hw op outH outW Hx Hu Hg E.
  exact (avg_adjoint op inH inW x u g o m eq_refl eq_refl eq_refl eq_refl Hk Hw Hx Hu Hg E).
Qed.

(** With stride 2 it is not: one 1x2 window on a 1x2 image; the second pixel gets
    no gradient. *)
Theorem C24_gradient_adjoint_refuted :
  ~ (forall (op : poolOp) (inH inW : nat) (x u g o r ou : list R) (m : list Z),
       poolOk op inH inW = true ->
       avgPlane op inH inW (pooledH op inH) (pooledW op inW) x = Some (o, m) ->
       avgDiffPlane op inH inW (pooledH op inH) (pooledW op inW) g m = Some r ->
       avgPlane op inH inW (pooledH op inH) (pooledW op inW) u = Some (ou, m) ->
       length g = length ou -> dot u r = dot ou g).
Proof.
  intro H.
  set (op := {| ph_ := 1; pw_ := 2; padNorth := 0; padSouth := 0; padWest := 0; padEast := 0;
                explicitPadding := false; pstrideH := 2; pstrideW := 2 |}).
  specialize (H op 1 2 [0; 1]%R [0; 1]%R [1%R] [((0 + 0 + 1) / INR 2)%R] [((0 + (0) + (0 + 1)) / INR 2)%R; (0 / INR 2)%R] [((0 + 0 + 1) / INR 2)%R] [1%Z]).
  specialize (H eq_refl eq_refl eq_refl eq_refl eq_refl).
  cbn [dot] in H. cbn [radd rmul r0 CRing_R] in H. change (INR 2) with (1 + 1)%R in H. lra.
Qed.

(** ** C25 *)
Theorem C25_upsample_repeats_each_pixel :
  forall (A : Type) (CR : CRing A) (scale b c h w : nat) (x : list A),
    1 <= scale -> length x = b * c * h * w ->
    exists out, upsampleDo scale b c h w x = Some out /\ length out = b * c * (h * scale) * (w * scale) /\
      forall bi ci i j, bi < b -> ci < c -> i < h * scale -> j < w * scale ->
        nth_error out (((bi * c + ci) * (h * scale) + i) * (w * scale) + j)
        = nth_error x (((bi * c + ci) * h + i / scale) * w + j / scale).
Proof.
  intros A CR s b c h w x Hs Hx. eexists. split; [apply upsample_ok; assumption|].
  split; [rewrite map_length, seq_length; reflexivity|]. intros bi ci i j Hb Hc Hi Hj.
  assert (K : bi * c + ci < b * c) by nia.
  change (((bi * c + ci) * (h * s) + i) * (w * s) + j) with (at3 (h * s) (w * s) (bi * c + ci) i j).
  change (((bi * c + ci) * h + i / s) * w + j / s) with (at3 h w (bi * c + ci) (i / s) (j / s)).
  rewrite nth_error_map, nth_seq0 by (apply at3_lt; assumption). cbn [option_map].
  rewrite upT_at by assumption. symmetry. apply nth_error_nth'. rewrite Hx. apply at3_lt.
  - exact K.
  - apply Nat.div_lt_upper_bound; lia.
  - apply Nat.div_lt_upper_bound; lia.
Qed.

Theorem C25_gradient_is_the_adjoint :
  forall (A : Type) (CR : CRing A) (scale b c h w : nat) (x g : list A),
    1 <= scale -> length x = b * c * h * w -> length g = b * c * (h * scale) * (w * scale) ->
    exists out r, upsampleDo scale b c h w x = Some out /\ upsampleDiffDo scale b c h w g = Some r /\
      length r = length x /\ dot x r = dot out g.
Proof.
  intros A CR s b c h w x g Hs Hx Hg. eexists _, _.
  split; [apply upsample_ok; assumption|]. split; [apply upsampleDiff_ok; assumption|].
  split; [rewrite map_length, seq_length; lia|]. apply upsample_adjoint; assumption.
Qed.
Example C25_case :
  upsampleDo 2 1 1 2 2 [1; 2; 3; 4]%Z = Some [1; 1; 2; 2; 1; 1; 2; 2; 3; 3; 4; 4; 3; 3; 4; 4]%Z /\
  upsampleDiffDo 2 1 1 2 2 [1; 2; 3; 4; 5; 6; 7; 8; 9; 10; 11; 12; 13; 14; 15; 16]%Z = Some [14; 22; 46; 54]%Z.
Proof. split; vm_compute; reflexivity. Qed.

Print Assumptions C23_max_of_each_window.
Print Assumptions C23_forward_then_gradient.
Print Assumptions C24_divides_by_the_input_width.
Print Assumptions C24_gradient_adjoint_with_stride_1.
Print Assumptions C25_gradient_is_the_adjoint.

(** MaxPool1D: the maximum over stretches of each row. *)
Theorem C23_MaxPool1D :
  forall (V : Type) (gtb : V -> V -> bool) (low : V) (kernel pad stride planes inH inW : nat) (data : list V),
    strict_order gtb -> (forall v, In v data -> gtb v low = true) ->
    1 <= stride -> 1 <= inH -> 1 <= inW -> pad < kernel -> kernel <= inW + pad + pad ->
    length data = planes * (inH * inW) ->
    let outW := (inW + pad + pad - kernel) / stride + 1 in
    exists o m, maxPool1D V gtb low kernel pad stride planes inH inW data = Some (o, m) /\ length o = planes * (inH * outW) /\
      forall k ph pw, k < planes -> ph < inH -> pw < outW ->
        exists x c, nth_error o ((k * inH + ph) * outW + pw) = Some x /\ c < inW /\
          (pw * stride <= c + pad < pw * stride + kernel) /\ nth_error data ((k * inH + ph) * inW + c) = Some x /\
          (forall c' v, c' < inW -> pw * stride <= c' + pad < pw * stride + kernel ->
             nth_error data ((k * inH + ph) * inW + c') = Some v -> gtb v x = false).
Proof.
  intros V gtb low kernel pad stride planes inH inW data So Hlow Hs HH HW Hp Hk Hl outW.
  destruct (C23_max_of_each_window V gtb low 1 kernel 0 pad 1 stride planes inH inW data) as (o & m & E & Lo & _ & P);
    try assumption; try lia.
  assert (EH : (inH + 0 + 0 - 1) / 1 + 1 = inH) by (rewrite Nat.div_1_r; lia). rewrite EH in P, Lo.
  exists o, m. split; [exact E|]. split; [exact Lo|]. intros k ph pw Hk' Hph Hpw.
  destruct (P k ph pw Hk' Hph Hpw) as (x & i & H1 & _ & (r & c & Hr & Hc & -> & W1 & W2) & H3 & H4).
  assert (r = ph) as -> by lia. exists x, c. split; [exact H1|]. split; [exact Hc|]. split; [exact W2|].
  split; [rewrite <- H3; f_equal; nia|]. intros c' v Hc' W' Hv. apply (H4 (ph * inW + c')).
  - exists ph, c'. repeat split; lia.
  - rewrite <- Hv. f_equal. nia.
Qed.
Print Assumptions C23_MaxPool1D.
Example C23_ex_MaxPool1D : maxPool1D Z zgt (-100)%Z 2 0 1 1 2 3 [1; 3; 4; 9; 2; 1]%Z = Some ([3; 4; 9; 2]%Z, [1; 2; 3; 4]%Z).
Proof. reflexivity. Qed.

(** Refused: no stride, or a kernel larger than the padded image. *)
Theorem C23_refused :
  forall (V : Type) (gtb : V -> V -> bool) (low : V) (kh kw n s w e sh sw planes inH inW : nat) (data : list V) (reals : list R),
    sh = 0 \/ sw = 0 \/ inH + n + s < kh \/ inW + w + e < kw ->
    maxPool2D V gtb low kh kw [n; s; w; e] sh sw planes inH inW data = None /\
    averagePool2D kh kw [n; s; w; e] sh sw planes inH inW reals = None /\
    (n = s -> w = e -> maxPool2D V gtb low kh kw [n; w] sh sw planes inH inW data = None /\
                       averagePool2D kh kw [n; w] sh sw planes inH inW reals = None).
Proof.
  intros V gtb low kh kw n s w e sh sw planes inH inW data reals H.
  assert (B : forall ex n s w e, sh = 0 \/ sw = 0 \/ inH + n + s < kh \/ inW + w + e < kw ->
    poolOk {| ph_ := kh; pw_ := kw; padNorth := n; padSouth := s; padWest := w; padEast := e;
              explicitPadding := ex; pstrideH := sh; pstrideW := sw |} inH inW = false).
  { intros ex n' s' w' e' H'. unfold poolOk. cbn [ph_ pw_ padNorth padSouth padWest padEast pstrideH pstrideW].
    apply not_true_is_false. rewrite !andb_true_iff, !Nat.leb_le. lia. }
  unfold maxPool2D, averagePool2D. cbn [newPoolOp]. rewrite (B true n s w e H). split; [reflexivity|]. split; [reflexivity|].
  intros <- <-. rewrite (B false n n w w H). split; reflexivity.
Qed.
Print Assumptions C23_refused.
Example C23_ex_refused : maxPool2D Z zgt (-100)%Z 1 1 [0; 0] 1 0 1 1 3 [1; 3; 4]%Z = None.
Proof. reflexivity. Qed.
