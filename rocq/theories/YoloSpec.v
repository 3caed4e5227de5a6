(** What YOLOv3 is documented to compute (https://arxiv.org/abs/1804.02767, named in
    op_yolo.go:36), apart from the model. *)
From Coq Require Import List ZArith QArith Arith.
Import ListNotations.

(** The numbers of one box: [v j] are the raw numbers of an anchor at the cell in column
    [gx] and row [gy]; (aw, ah) is the anchor. The first two are the centre in pixels, the
    next two width and height, the rest probabilities. *)
Definition box (sg ex : Q -> Q) (v : nat -> Q) (gx gy stride aw ah : Q) (j : nat) : Q :=
  match j with
  | 0%nat => (sg (v 0%nat) + gx) * stride
  | 1%nat => (sg (v 1%nat) + gy) * stride
  | 2%nat => ex (v 2%nat) * aw
  | 3%nat => ex (v 3%nat) * ah
  | _ => sg (v j)
  end.

(** A pixel of a rectangle given by its corners, the upper ones not included. *)
Definition inside (a b c d : Z) (p : Z * Z) : bool :=
  ((a <=? fst p) && (fst p <? c) && (b <=? snd p) && (snd p <? d))%Z%bool.
(** The pixels from (lo, lo) to (lo + n - 1, lo + n - 1). *)
Definition pixels (lo : Z) (n : nat) : list (Z * Z) :=
  list_prod (map (fun k => lo + Z.of_nat k)%Z (seq 0 n)) (map (fun k => lo + Z.of_nat k)%Z (seq 0 n)).
(** The number of pixels satisfying a condition. *)
Definition count (f : Z * Z -> bool) (l : list (Z * Z)) : Z := Z.of_nat (length (filter f l)).

(** The losses: cross entropy for a target that is there or not, half a squared difference,
    and the number whose sigmoid is [t], all with 10^-16 inside the logarithms. *)
Definition tiny : Q := 1 # 10000000000000000.
Definition there (lg : Q -> Q) (p : Q) : Q := - lg (p + tiny).
Definition notThere (lg : Q -> Q) (p : Q) : Q := - lg (1 + tiny - p).
Definition halfSquare (scale a b : Q) : Q := (1 # 2) * (scale * scale * (a - b) * (a - b)).
Definition logit (lg : Q -> Q) (t : Q) : Q := lg (t + tiny) - lg (1 + tiny - t).
