(** Independent specification for C61 and C62: the groups of a (batch, channels, image)
    tensor stored row by row.  [mean], [variance] and [add_up] are those of BatchNormSpec,
    [is_gradient] that of DropoutSpec. *)
From Coq Require Import Arith Reals List.
From Verif Require Import BatchNormSpec.
Import ListNotations.
Local Open Scope R_scope.

(** The values of group [g] of sample [s] when the channels are split into consecutive
    groups of [d] channels. *)
Definition group_values (channels d image : nat) (x : list R) (s g : nat) : list R :=
  flat_map (fun c => map (fun p => nth ((s * channels + (g * d + c)) * image + p)%nat x 0) (seq 0 image)) (seq 0 d).

(** Group normalisation: every value is centred and scaled by its own group. *)
Definition group_normalise (channels d image : nat) (eps : R) (x : list R) : list R :=
  map (fun i =>
    let s := (i / image / channels)%nat in
    let g := (i / image mod channels / d)%nat in
    let l := group_values channels d image x s g in
    (nth i x 0 - mean l) / sqrt (variance l + eps)) (seq 0 (length x)).
