(** The MNIST file format and the intended pixel weights, written without the reader's own
    functions (specification only, nothing here is modelled code). *)
From Coq Require Import List ZArith QArith.
From Coq.Floats Require Import SpecFloat.
Import ListNotations.
Local Open Scope Z_scope.

(** Specification: the four bytes of a number, the highest first. *)
Definition be32 (n : Z) : list Z :=
  [n / 2 ^ 24; (n / 2 ^ 16) mod 256; (n / 2 ^ 8) mod 256; n mod 256].

(** Specification: a label file is 2049, the number of labels, and a byte for each. *)
Definition labelFile (ls : list Z) : list Z :=
  be32 2049 ++ be32 (Z.of_nat (length ls)) ++ ls.

(** Specification: an image file is 2051, the number of images, rows and columns, and the
    pixels of one image after the other. *)
Definition imageFile (nrow ncol : Z) (ims : list (list Z)) : list Z :=
  be32 2051 ++ be32 (Z.of_nat (length ims)) ++ be32 nrow ++ be32 ncol ++ concat ims.

(** Specification: the rational number a float stands for. *)
Definition toQ (x : spec_float) : Q :=
  match x with
  | S754_finite s m e =>
    let z := if s then Z.neg m else Z.pos m in
    match e with
    | Zneg k => z # (2 ^ k)
    | _ => inject_Z (z * 2 ^ e)
    end
  | _ => 0%Q
  end.

(** Specification: a pixel 0..255 becomes a number from 0.1 to 1 on a line; black itself is
    0.999. *)
Definition weight (px : Z) : Q :=
  if px =? 255 then (999 # 1000)%Q else ((inject_Z px / 255) * (9 # 10) + (1 # 10))%Q.

(** Specification: two rationals that differ by at most the tolerance. *)
Definition within (tol a b : Q) : Prop := (- tol <= a - b /\ a - b <= tol)%Q.
