(** What the detections should be, apart from the model. *)
From Coq Require Import List ZArith QArith Bool Arith String.
From Verif Require Import YoloSpec.
Import ListNotations.
Local Open Scope nat_scope.

(** Two rectangles, given by their corners, share more than the part [t] of the pixels of
    either. *)
Definition Overlap (t : Q) (a b : Z * Z * Z * Z) : Prop :=
  let '(ax, ay, aX, aY) := a in let '(bx, by_, bX, bY) := b in
  exists lo n,
    (lo <= ax /\ lo <= ay /\ lo <= bx /\ lo <= by_ /\ aX <= lo + Z.of_nat n /\ aY <= lo + Z.of_nat n /\
     bX <= lo + Z.of_nat n /\ bY <= lo + Z.of_nat n)%Z /\
    (t * inject_Z (count (fun p => inside ax ay aX aY p || inside bx by_ bX bY p) (pixels lo n)) <
     inject_Z (count (fun p => inside ax ay aX aY p && inside bx by_ bX bY p) (pixels lo n)))%Q.

(** A most likely class of a record: the first of the largest probability, if that is
    above zero; otherwise the first class, with probability zero. *)
Definition Likeliest (probs : list Q) (k : nat) (p : Q) : Prop :=
  (nth_error probs k = Some p /\ (0 < p)%Q /\ (forall i q, nth_error probs i = Some q -> (q <= p)%Q) /\
   (forall i q, i < k -> nth_error probs i = Some q -> (q < p)%Q)) \/
  (k = 0 /\ p = 0%Q /\ forall i q, nth_error probs i = Some q -> (q <= 0)%Q).
