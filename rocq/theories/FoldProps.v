(** C114: the convolutional layers of the YOLO examples. *)
From Coq Require Import List Arith QArith Bool Lia Lqa.
From Verif Require Import BroadcastModel ShapeGradModel FoldModel FoldSpec FoldProofs.
Import ListNotations.
Local Open Scope nat_scope.

Lemma leak_spec coef y : Leaky coef y (leak coef y).
Proof.
  unfold Leaky, leak. destruct (Qle_bool 0 y) eqn:E.
  - left. apply Qle_bool_iff in E. split; [exact E|reflexivity].
  - right. split; [|reflexivity]. apply Qnot_le_lt. intros H. apply Qle_bool_iff in H. rewrite H in E. discriminate E.
Qed.
Lemma memory_nth ws spare x : nth x (memory ws spare) 0%Q = nth x ws 0%Q.
Proof.
  unfold memory. destruct (Nat.lt_ge_cases x (length ws)) as [H|H]; [apply app_nth1; exact H|].
  rewrite app_nth2 by exact H. rewrite (nth_overflow ws 0%Q H). generalize (x - length ws).
  induction spare as [|s IH]; intros [|k]; cbn; auto.
Qed.

(** The sum of a filter with its folded kernel, and its bias. *)
Lemma good_value rt eps mem st c l mem' f x :
  Good rt eps mem st c l mem' -> f < filters c ->
  let K := firstn (nkern l) (skipn (kern l) mem') in
  let conv := total (isize c) (fun j => (nth (isize c * f + j)%nat K 0 * x j)%Q) in
  match bnorm c with
  | None =>
      (conv == total (isize c) (fun j => nth (st + filters c + f * isize c + j)%nat mem 0 * x j))%Q
  | Some _ =>
      (conv == total (isize c) (fun j => nth (st + 4 * filters c + f * isize c + j)%nat mem 0 * x j)
               * scl rt eps mem (st + filters c) (st + 3 * filters c) f)%Q
  end.
Proof.
  intros (_ & NK & _ & D) Hf K conv. subst K conv. rewrite NK.
  destruct (bnorm c) as [z|]; destruct D as (_ & KE & _ & D).
  - rewrite <- total_scale. apply total_ext. intros j Hj.
    rewrite nth_sub by nia. rewrite KE, D by nia.
    replace ((isize c * f + j) / isize c) with f by (apply Nat.div_unique with j; nia).
    replace (st + 4 * filters c + (isize c * f + j)) with (st + 4 * filters c + f * isize c + j) by lia. ring.
  - apply total_ext. intros j Hj. rewrite nth_sub by nia. rewrite KE, D by nia.
    replace (st + filters c + (isize c * f + j)) with (st + filters c + f * isize c + j) by lia. reflexivity.
Qed.

Lemma toNode_ok coef rt eps mem st c l mem' N P patch : Good rt eps mem st c l mem' -> 0 < filters c ->
  exists out, toNode coef l mem' N P patch = Ok out /\ length out = N * filters c * P /\
    forall n f p, n < N -> f < filters c -> p < P ->
      exists conv, (conv == total (isize c) (fun j => nth (isize c * f + j)%nat (firstn (nkern l) (skipn (kern l) mem')) 0 * patch n p j))%Q /\
        nth_error out ((n * filters c + f) * P + p)
        = Some (if leaky c then leak coef (conv + nth (((n * filters c + f) * P + p) / (N * P))%nat (lbias l) 0)%Q else conv).
Proof.
  intros (E & NK & LB & _) HF. unfold toNode. rewrite E, NK, Nat.eqb_refl. cbn [negb].
  destruct (length (lbias l) =? 0) eqn:Z; [apply Nat.eqb_eq in Z; lia|].
  destruct (layer_out (filters c) P (isize c) N patch (firstn (filters c * isize c) (skipn (kern l) mem')) (lbias l) HF LB) as (L1 & L2 & V).
  rewrite L1, Nat.eqb_refl. cbn [negb].
  destruct (leaky c).
  - eexists. split; [reflexivity|]. split; [rewrite map_length; exact L2|].
    intros n f p Hn Hf Hp. eexists. split; [apply (conv_at (filters c) P (isize c) N patch _ n f p Hn Hf Hp)|].
    rewrite nth_error_map. rewrite (nth_error_nth' _ 0%Q) by (rewrite L2; apply idx_lt; assumption).
    cbn [option_map]. rewrite (V n f p Hn Hf Hp). reflexivity.
  - eexists. split; [reflexivity|]. split; [apply convOut_length|].
    intros n f p Hn Hf Hp. eexists. split; [apply (conv_at (filters c) P (isize c) N patch _ n f p Hn Hf Hp)|].
    apply nth_error_nth'. rewrite convOut_length. apply idx_lt; assumption.
Qed.

(** Every leaky layer of a network of version 3 computes, for one sample, what darknet does
    with the numbers of the file: normalization by the stored statistics, scale, bias,
    activation. Numbers that the file lacks count as zero as long as the capacity lasts. *)
Theorem C114_network rt eps coef ws spare cs a c b :
  Forall (fun d => bnorm d <> Some 0) cs -> 5 + needs cs <= length ws + spare -> cs = a ++ c :: b ->
  0 < filters c -> leaky c = true ->
  exists mem' ls l, loadAll rt eps cs (memory ws spare) 5 = Ok (mem', ls) /\ nth_error ls (length a) = Some l /\
    forall P patch, exists out, toNode coef l mem' 1 P patch = Ok out /\ length out = filters c * P /\
      forall f p, f < filters c -> p < P ->
        (isbn c = true -> ~ rt (nth (5 + needs a + 3 * filters c + f)%nat ws 0 + eps) == 0)%Q ->
        exists y z, LayerValue (fun x => nth x ws 0%Q) (fun v => rt (v + eps)%Q) (5 + needs a) (filters c) (isize c) (isbn c) f (patch 0 p) y /\
          Leaky coef y z /\ nth_error out (f * P + p) = Some z.
Proof.
  intros B H E HF HL.
  destruct (loadAll_spec rt eps cs B (memory ws spare) 5) as (mem' & ls & EL & _ & _ & _ & G).
  { unfold memory. rewrite app_length, repeat_length. exact H. }
  destruct (G a c b E) as (l & El & Gl). exists mem', ls, l. split; [exact EL|]. split; [exact El|].
  intros P patch. destruct (toNode_ok coef _ _ _ _ _ _ _ 1 P patch Gl HF) as (out & EO & LO & V).
  exists out. split; [exact EO|]. split; [rewrite LO; lia|]. intros f p Hf Hp HR.
  destruct (V 0 f p ltac:(lia) Hf Hp) as (conv & EC & EZ). rewrite HL in EZ. cbn [Nat.mul Nat.add] in EZ. rewrite Nat.add_0_r in EZ.
  replace ((f * P + p) / P) with f in EZ by (apply Nat.div_unique with p; lia).
  eexists _, _. split; [|split; [apply leak_spec|exact EZ]].
  pose proof (good_value rt eps _ _ _ _ _ f (patch 0 p) Gl Hf) as GV. cbv zeta in GV.
  destruct Gl as (_ & _ & _ & D). unfold LayerValue, isbn in *. set (st := 5 + needs a) in *. clearbody st.
  destruct (bnorm c) as [z|].
  - destruct D as (D & _). rewrite (D f Hf). rewrite <- EC in GV. rewrite GV. unfold scl. rewrite !memory_nth.
    rewrite (total_ext (isize c) _ (fun j => nth (st + 4 * filters c + f * isize c + j)%nat ws 0 * patch 0%nat p j)%Q)
      by (intros; rewrite memory_nth; reflexivity).
    replace (st + filters c + f) with (st + (filters c + f)) by lia. field. specialize (HR eq_refl). exact HR.
  - destruct D as (D & _). rewrite (D f Hf). rewrite <- EC in GV. rewrite GV, memory_nth.
    rewrite (total_ext (isize c) _ (fun j => nth (st + filters c + f * isize c + j)%nat ws 0 * patch 0%nat p j)%Q)
      by (intros; rewrite memory_nth; reflexivity).
    ring.
Qed.
Print Assumptions C114_network.

(** A layer whose activation is not leaky returns the convolution alone: the bias, and with
    batch normalization mean and bias both, are lost. *)
Theorem C114_linear rt eps coef ws spare cs a c b :
  Forall (fun d => bnorm d <> Some 0) cs -> 5 + needs cs <= length ws + spare -> cs = a ++ c :: b ->
  0 < filters c -> leaky c = false ->
  exists mem' ls l, loadAll rt eps cs (memory ws spare) 5 = Ok (mem', ls) /\ nth_error ls (length a) = Some l /\
    forall N P patch, exists out, toNode coef l mem' N P patch = Ok out /\
      forall n f p, n < N -> f < filters c -> p < P ->
        (isbn c = true -> ~ rt (nth (5 + needs a + 3 * filters c + f)%nat ws 0 + eps) == 0)%Q ->
        exists z, nth_error out ((n * filters c + f) * P + p) = Some z /\
          let st := 5 + needs a in
          if isbn c then (z * rt (nth (st + 3 * filters c + f)%nat ws 0 + eps)
                          == nth (st + filters c + f)%nat ws 0 * total (isize c) (fun j => nth (st + 4 * filters c + f * isize c + j)%nat ws 0 * patch n p j))%Q
          else (z == total (isize c) (fun j => nth (st + filters c + f * isize c + j)%nat ws 0 * patch n p j))%Q.
Proof.
  intros B H E HF HL.
  destruct (loadAll_spec rt eps cs B (memory ws spare) 5) as (mem' & ls & EL & _ & _ & _ & G).
  { unfold memory. rewrite app_length, repeat_length. exact H. }
  destruct (G a c b E) as (l & El & Gl). exists mem', ls, l. split; [exact EL|]. split; [exact El|].
  intros N P patch. destruct (toNode_ok coef _ _ _ _ _ _ _ N P patch Gl HF) as (out & EO & LO & V).
  exists out. split; [exact EO|]. intros n f p Hn Hf Hp HR.
  destruct (V n f p Hn Hf Hp) as (conv & EC & EZ). rewrite HL in EZ. exists conv. split; [exact EZ|]. cbv zeta.
  pose proof (good_value rt eps _ _ _ _ _ f (patch n p) Gl Hf) as GV. cbv zeta in GV.
  unfold isbn in *. set (st := 5 + needs a) in *. clearbody st.
  destruct (bnorm c) as [z|].
  - rewrite <- EC in GV. rewrite GV. unfold scl. rewrite !memory_nth.
    rewrite (total_ext (isize c) _ (fun j => nth (st + 4 * filters c + f * isize c + j)%nat ws 0 * patch n p j)%Q)
      by (intros; rewrite memory_nth; reflexivity).
    field. exact (HR eq_refl).
  - rewrite <- EC in GV. rewrite GV. apply total_ext. intros j _. rewrite memory_nth. reflexivity.
Qed.
Print Assumptions C114_linear.

(** So such a layer is not what darknet computes: one filter of one weight, bias 5. *)
Theorem C114_linear_refuted :
  ~ (forall rt eps coef ws c mem' l out y, bnorm c = None -> leaky c = false ->
       loadAll rt eps [c] (memory ws 0) 5 = Ok (mem', [l]) -> toNode coef l mem' 1 1 (fun _ _ _ => 1%Q) = Ok [out] ->
       LayerValue (fun x => nth x ws 0%Q) (fun v => rt (v + eps)%Q) 5 (filters c) (isize c) false 0 (fun _ => 1%Q) y -> (out == y)%Q).
Proof.
  intros H.
  specialize (H (fun x => x) 0%Q 0%Q [0; 0; 0; 0; 0; 5; 2]%Q (Cfg 1 1 None false) [0; 0; 0; 0; 0; 5; 2]%Q
    (Layer (Cfg 1 1 None false) 6 1 [5]%Q) (0 + 2 * 1)%Q 7%Q eq_refl eq_refl eq_refl eq_refl).
  assert (X : (0 + 2 * 1 == 7)%Q) by (apply H; reflexivity). discriminate X.
Qed.
Print Assumptions C114_linear_refuted.

(** With two samples the biases of the leaky layers go to the wrong filters. *)
Theorem C114_samples_refuted :
  ~ (forall rt eps coef ws c mem' l out n f z, bnorm c = None -> leaky c = true ->
       loadAll rt eps [c] (memory ws 0) 5 = Ok (mem', [l]) -> toNode coef l mem' 2 1 (fun _ _ _ => 1%Q) = Ok out ->
       n < 2 -> f < filters c -> nth_error out (n * filters c + f) = Some z ->
       exists y, LayerValue (fun x => nth x ws 0%Q) (fun v => rt (v + eps)%Q) 5 (filters c) (isize c) false f (fun _ => 1%Q) y /\ Leaky coef y z).
Proof.
  intros H.
  destruct (H (fun x => x) 0%Q 0%Q [0; 0; 0; 0; 0; 5; 6; 1; 1]%Q (Cfg 2 1 None true) [0; 0; 0; 0; 0; 5; 6; 1; 1]%Q
    (Layer (Cfg 2 1 None true) 7 2 [5; 6]%Q) _ 0 1 (0 + 1 * 1 + 5)%Q eq_refl eq_refl eq_refl eq_refl ltac:(lia) ltac:(cbn; lia) eq_refl)
    as (y & Y & L).
  unfold LayerValue in Y. cbn in Y.
  assert (Y' : (y == 7)%Q) by (rewrite Y; reflexivity).
  destruct L as [[_ L]|[L _]].
  - rewrite Y' in L. discriminate L.
  - rewrite Y' in L. discriminate L.
Qed.
Print Assumptions C114_samples_refuted.

(** A file that is too short is noticed if it is shorter than the weights by more than the
    spare capacity of the slice it is read into ... *)
Theorem C114_too_short rt eps ws spare cs :
  Forall (fun d => bnorm d <> Some 0) cs -> cs <> [] -> length ws + spare < 5 + needs cs ->
  loadAll rt eps cs (memory ws spare) 5 = Panic.
Proof.
  intros B NE H. destruct (loadAll_short rt eps cs B (memory ws spare) 5) as [E|E]; [|contradiction|exact E].
  unfold memory. rewrite app_length, repeat_length. exact H.
Qed.
Print Assumptions C114_too_short.

(** ... and not otherwise. *)
Theorem C114_too_short_refuted :
  ~ (forall rt eps ws spare cs, Forall (fun d => bnorm d <> Some 0) cs -> length ws < 5 + needs cs ->
       loadAll rt eps cs (memory ws spare) 5 = Panic).
Proof.
  intros H. specialize (H (fun x => x) 0%Q [0; 0; 0; 0; 0; 5]%Q 2 [Cfg 1 1 None true]).
  assert (X : loadAll (fun x => x) 0%Q [Cfg 1 1 None true] (memory [0; 0; 0; 0; 0; 5]%Q 2) 5 = Panic).
  { apply H; [repeat constructor; discriminate|cbn; lia]. }
  discriminate X.
Qed.
Print Assumptions C114_too_short_refuted.

(** [batch_normalize=0] in the configuration: building the layer panics. *)
Theorem C114_zero rt eps coef c mem idx mem' idx' l N P patch :
  bnorm c = Some 0 -> loadConv rt eps c mem idx = Ok (mem', idx', l) -> toNode coef l mem' N P patch = Panic.
Proof.
  intros B E. unfold loadConv in E. rewrite B in E. injection E as <- <- <-.
  unfold toNode. cbn [lcfg nkern lbias]. destruct (negb _); reflexivity.
Qed.
Print Assumptions C114_zero.

(** Version 2 copies the numbers of each layer; its layers always have an activation (the
    last one with coefficient 1). *)
Theorem C114_v2 rt eps coef ws spare F isz idx bn :
  0 < F -> idx + need F isz bn <= length ws + spare ->
  exists b k, load2 rt eps (memory ws spare) F isz idx bn true = Ok (b, k, idx + need F isz bn) /\
    forall P patch, exists out, layer2 coef F isz b k 1 P patch = Ok out /\ length out = F * P /\
      forall f p, f < F -> p < P -> (bn = true -> ~ rt (nth (idx + 3 * F + f)%nat ws 0 + eps) == 0)%Q ->
        exists y z, LayerValue (fun x => nth x ws 0%Q) (fun v => rt (v + eps)%Q) idx F isz bn f (patch 0 p) y /\
          Leaky coef y z /\ nth_error out (f * P + p) = Some z.
Proof.
  intros HF H. set (mem := memory ws spare).
  assert (LM : length mem = length ws + spare) by (unfold mem, memory; rewrite app_length, repeat_length; reflexivity).
  assert (W : forall b k, length b = F -> length k = F * isz -> forall P patch,
    exists out, layer2 coef F isz b k 1 P patch = Ok out /\ length out = F * P /\
      forall f p, f < F -> p < P -> exists conv,
        (conv == total isz (fun j => nth (isz * f + j)%nat k 0 * patch 0%nat p j))%Q /\
        nth_error out (f * P + p) = Some (leak coef (conv + nth f b 0)%Q)).
  { intros b k Lb Lk P patch. unfold layer2. rewrite Lk, Nat.eqb_refl. cbn [negb].
    destruct (length b =? 0) eqn:Z; [apply Nat.eqb_eq in Z; lia|].
    destruct (layer_out F P isz 1 patch k b HF Lb) as (L1 & L2 & V).
    rewrite L1, Nat.eqb_refl. cbn [negb]. eexists. split; [reflexivity|]. split; [rewrite map_length, L2; lia|].
    intros f p Hf Hp. eexists. split; [apply (conv_at F P isz 1 patch _ 0 f p ltac:(lia) Hf Hp)|].
    pose proof (idx_lt 1 F P 0 f p ltac:(lia) Hf Hp) as X.
    change (f * P + p) with ((0 * F + f) * P + p).
    rewrite nth_error_map, (nth_error_nth' _ 0%Q) by (rewrite L2; exact X).
    cbn [option_map]. rewrite (V 0 f p ltac:(lia) Hf Hp).
    replace (((0 * F + f) * P + p) / (1 * P)) with f by (apply Nat.div_unique with p; lia). reflexivity. }
  unfold load2, prepareData, need in *. destruct bn.
  - rewrite !view_ok by lia. cbn [bind].
    destruct (denorm2_spec rt eps isz F (firstn F (skipn idx mem)) (firstn F (skipn (idx + F) mem)) (firstn F (skipn (idx + F + F) mem))
      (firstn F (skipn (idx + F + F + F) mem)) (firstn (F * isz) (skipn (idx + F + F + F + F) mem))
      ltac:(apply length_sub; lia) ltac:(apply length_sub; lia) ltac:(apply length_sub; lia) ltac:(apply length_sub; lia)
      ltac:(rewrite length_sub; lia) F 0 (firstn F (skipn idx mem)) (firstn (F * isz) (skipn (idx + F + F + F + F) mem))
      ltac:(lia) ltac:(apply length_sub; lia) ltac:(rewrite length_sub; lia)) as (b' & k' & E & Lb & Lk & Nb & Nk).
    { intros x. destruct (x <? 0) eqn:A; [bools; lia|reflexivity]. }
    { intros x. destruct (x <? isz * 0) eqn:A; [bools; lia|reflexivity]. }
    rewrite E. cbn [bind]. exists b', k'. split; [f_equal; f_equal; lia|].
    intros P patch. destruct (W b' k' Lb ltac:(lia) P patch) as (out & EO & LO & V).
    exists out. split; [exact EO|]. split; [exact LO|]. intros f p Hf Hp HR.
    destruct (V f p Hf Hp) as (conv & EC & EZ). eexists _, _. split; [|split; [apply leak_spec|exact EZ]].
    unfold LayerValue. rewrite (Nb f Hf), !nth_sub by exact Hf.
    assert (EC' : (conv == total isz (fun j => nth (idx + 4 * F + f * isz + j)%nat ws 0 * patch 0%nat p j) * (nth (idx + F + f)%nat ws 0 / rt (nth (idx + 3 * F + f)%nat ws 0 + eps)))%Q).
    { rewrite EC, <- total_scale. apply total_ext. intros j Hj. rewrite Nk by nia.
      replace ((isz * f + j) / isz) with f by (apply Nat.div_unique with j; nia).
      rewrite !nth_sub by nia. unfold mem. rewrite !memory_nth.
      replace (idx + F + F + F + F + (isz * f + j)) with (idx + 4 * F + f * isz + j) by lia.
      replace (idx + F + F + F + f) with (idx + 3 * F + f) by lia. ring. }
    rewrite EC'. unfold mem. rewrite !memory_nth.
    replace (idx + F + F + F + f) with (idx + 3 * F + f) by lia. replace (idx + F + F + f) with (idx + 2 * F + f) by lia.
    field. exact (HR eq_refl).
  - rewrite !view_ok by lia. cbn [bind]. eexists _, _. split; [f_equal; f_equal; lia|].
    intros P patch. destruct (W (firstn F (skipn idx mem)) (firstn (F * isz) (skipn (idx + F) mem)) ltac:(apply length_sub; lia) ltac:(apply length_sub; lia) P patch) as (out & EO & LO & V).
    exists out. split; [exact EO|]. split; [exact LO|]. intros f p Hf Hp HR.
    destruct (V f p Hf Hp) as (conv & EC & EZ). eexists _, _. split; [|split; [apply leak_spec|exact EZ]].
    unfold LayerValue. rewrite nth_sub by exact Hf. rewrite EC. unfold mem. rewrite memory_nth.
    rewrite (total_ext isz _ (fun j => nth (idx + F + f * isz + j)%nat ws 0 * patch 0%nat p j)%Q); [ring|].
    intros j Hj. rewrite nth_sub by nia. rewrite memory_nth.
    replace (idx + F + (isz * f + j)) with (idx + F + f * isz + j) by lia. reflexivity.
Qed.
Print Assumptions C114_v2.

(** Parsing: a file of whole groups of four bytes gives one number for each; otherwise the
    rest counts as a number too, filled with zero bytes, or there is a panic. *)
Theorem C114_parse (f32 : list nat -> Q) spare : forall groups rest,
  Forall (fun g => length g = 4) groups -> length rest < 4 ->
  parse f32 spare (concat groups ++ rest)
  = match rest with
    | [] => Ok (map f32 groups)
    | _ => if 4 - length rest <=? spare then Ok (map f32 groups ++ [f32 (rest ++ repeat 0 (4 - length rest))]) else Panic
    end.
Proof.
  induction groups as [|g gs IH]; intros rest F H.
  - cbn [concat app map]. destruct rest as [|a [|b [|c [|d r]]]]; cbn in H; try lia; reflexivity.
  - pose proof (Forall_inv F) as G. cbv beta in G. apply Forall_inv_tail in F. specialize (IH rest F H).
    destruct g as [|a [|b [|c [|d [|e g]]]]]; cbn in G; try lia. cbn [concat app parse map]. rewrite IH.
    destruct rest as [|x r]; [reflexivity|]. destruct (_ <=? spare); reflexivity.
Qed.
Print Assumptions C114_parse.

(** Two blocks: one filter with batch normalization (bias 1, scale 6, mean 2, variance 3,
    kernel 5, 7), then one without (bias 10, kernel 4). *)
Example C114_ex :
  let cs := [Cfg 1 2 (Some 1) true; Cfg 1 1 None true] in
  let ws := [9; 9; 9; 9; 9; 1; 6; 2; 3; 5; 7; 10; 4]%Q in
  Forall (fun d => bnorm d <> Some 0) cs /\ 5 + needs cs = length ws + 0 /\
  match loadAll (fun v => v) 0 cs (memory ws 0) 5 with
  | Ok (mem, [l1; l2]) =>
      match toNode (1 # 10) l1 mem 1 2 (fun _ p j => if p =? 0 then 1%Q else (-1)%Q),
            toNode (1 # 10) l2 mem 1 1 (fun _ _ _ => 3%Q) with
      | Ok [u; v], Ok [w] => (u == 21 /\ v == -27 * (1 # 10) /\ w == 22)%Q
      | _, _ => False
      end
  | _ => False
  end.
Proof. split; [repeat constructor; discriminate|]. split; [reflexivity|]. vm_compute. repeat split. Qed.
