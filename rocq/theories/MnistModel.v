(** The reader of the MNIST files used by the examples, and the two functions between pixels
    and weights (examples/mnist/io.go, examples/mnist/mnist.go,
    examples/stacked_autoencoder/utils.go).

    A file is the list of its bytes, each an integer from 0 to 255; [None] is a file that
    os.Open does not open.  An io.Reader hands out the bytes in order and then EOF.  Memory is
    unlimited.  Errors are the [Err] of BroadcastModel without their texts.  float64 and
    float32 are the IEEE formats with rounding to nearest even, computed with the standard
    library's SpecFloat; no fused multiply-add (Go fuses on some platforms, not on amd64). *)
From Coq Require Import List ZArith Lia.
From Coq.Floats Require Import SpecFloat.
Import ListNotations.
From Verif Require Import BroadcastModel.
Local Open Scope Z_scope.

(** io.go:19-20, the constants labelMagic and imageMagic (io.go:13-14). *)
Definition labelMagic : Z := 0x801.

(** io.go:13. *)
Definition imageMagic : Z := 0x803.

(** An int32 from its unsigned value: the wrap around of Go's conversions (io.go:26-29, :71). *)
Definition int32 (z : Z) : Z := (z + 2 ^ 31) mod 2 ^ 32 - 2 ^ 31.

(** binary.Read(r, binary.BigEndian, &x) with x of type int32 (io.go:30, :36, :60, :66, :69,
    :72): four bytes, the first one the highest; an error when fewer are left. *)
Definition readInt32 (r : list Z) : res (Z * list Z) :=
  match r with
  | a :: b :: c :: d :: r' => Ok (int32 (((a * 256 + b) * 256 + c) * 256 + d), r')
  | _ => Err
  end.

(** io.go:40-46, the loop: one byte for each label. *)
Fixpoint readLabels (n : nat) (r : list Z) : res (list Z) :=
  match n with
  | O => Ok []
  | S n' =>
    match r with
    | [] => Err
    | l :: r' => match readLabels n' r' with Ok ls => Ok (l :: ls) | e => e end
    end
  end.

(** io.go:21-48 [readLabelFile].  make([]Label, n) panics for a negative n. *)
Definition readLabelFile (f : option (list Z)) : res (list Z) :=
  match f with
  | None => Err
  | Some r =>
    match readInt32 r with
    | Ok (magic, r1) =>
      if magic =? labelMagic then
        match readInt32 r1 with
        | Ok (n, r2) => if n <? 0 then Panic else readLabels (Z.to_nat n) r2
        | Err => Err | Panic => Panic
        end
      else Err
    | Err => Err | Panic => Panic
    end
  end.

(** io.ReadFull into a slice of m bytes (io.go:79): the m bytes, or an error. *)
Definition readFull (m : nat) (r : list Z) : res (list Z * list Z) :=
  if Nat.ltb (length r) m then Err else Ok (firstn m r, skipn m r).

(** io.go:77-86, the loop; make(RawImage, m) panics for a negative m. *)
Fixpoint readImages (n : nat) (m : Z) (r : list Z) : res (list (list Z)) :=
  match n with
  | O => Ok []
  | S n' =>
    if m <? 0 then Panic else
    match readFull (Z.to_nat m) r with
    | Ok (im, r') => match readImages n' m r' with Ok l => Ok (im :: l) | e => e end
    | Err => Err | Panic => Panic
    end
  end.

(** io.go:50-89 [readImageFile].  A wrong magic number returns err, which is nil there: no
    images and no error (io.go:63-65).  nrow * ncol is an int32 product (io.go:76). *)
Definition readImageFile (f : option (list Z)) : res (list (list Z)) :=
  match f with
  | None => Err
  | Some r =>
    match readInt32 r with
    | Ok (magic, r1) =>
      if magic =? imageMagic then
        match readInt32 r1 with
        | Ok (n, r2) =>
          match readInt32 r2 with
          | Ok (nrow, r3) =>
            match readInt32 r3 with
            | Ok (ncol, r4) =>
              if n <? 0 then Panic else readImages (Z.to_nat n) (int32 (nrow * ncol)) r4
            | Err => Err | Panic => Panic
            end
          | Err => Err | Panic => Panic
          end
        | Err => Err | Panic => Panic
        end
      else Ok []
    | Err => Err | Panic => Panic
    end
  end.

(** float64 arithmetic (mnist.go:59): 53 bits, exponents up to 1024. *)
Definition add64 := SFadd 53 1024.
(** As [add64] (mnist.go:67). *)
Definition sub64 := SFsub 53 1024.
(** As [add64] (mnist.go:59). *)
Definition mul64 := SFmul 53 1024.
(** As [add64] (mnist.go:59). *)
Definition div64 := SFdiv 53 1024.

(** float64(k) of a small integer, and the constant 255 (mnist.go:59, io.go:10). *)
Definition ofZ (k : Z) : spec_float := binary_normalize 53 1024 k 0 false.

(** The float64 constants 0.9, 0.1 and 0.999 (mnist.go:59-61): the nearest numbers. *)
Definition c09 : spec_float := S754_finite false 8106479329266893 (-53).
(** As [c09] (mnist.go:59). *)
Definition c01 : spec_float := S754_finite false 7205759403792794 (-56).
(** As [c09] (mnist.go:61). *)
Definition c0999 : spec_float := S754_finite false 8998192055486251 (-53).

(** mnist.go:58-64 [pixelWeight] (the same text in stacked_autoencoder/utils.go:44-50). *)
Definition pixelWeight (px : Z) : spec_float :=
  let retVal := add64 (mul64 (div64 (ofZ px) (ofZ 255)) c09) c01 in
  if SFeqb retVal (ofZ 1) then c0999 else retVal.

(** byte(x) of a float64 x (mnist.go:67) on amd64: the integer part, then its lowest eight
    bits.  (The language leaves the result open when the integer part is not a byte.) *)
Definition toByte (x : spec_float) : Z :=
  match x with
  | S754_finite s m e =>
    let t := if 0 <=? e then Z.pos m * 2 ^ e else Z.pos m / 2 ^ (- e) in
    (if s then - t else t) mod 256
  | _ => 0
  end.

(** mnist.go:66-68 [reversePixelWeight] (stacked_autoencoder/utils.go:52-54). *)
Definition reversePixelWeight (px : spec_float) : Z :=
  toByte (div64 (sub64 (mul64 (ofZ 255) px) (ofZ 255)) c09).

(** float32(x) of a float64 x (mnist.go:90). *)
Definition toF32 (x : spec_float) : spec_float :=
  match x with
  | S754_finite s m e => binary_normalize 24 128 (if s then Z.neg m else Z.pos m) e s
  | _ => x
  end.

(** The two dtypes the package serves (mnist.go:76, :85). *)
Inductive dtype := F64 | F32.

(** The number stored for a float64 (mnist.go:81, :90; a constant is rounded once, and the
    float32 nearest to 0.9 and 0.1 are those nearest to their float64, mnist.go:121-123). *)
Definition store (dt : dtype) (x : spec_float) : spec_float :=
  match dt with F64 => x | F32 => toF32 x end.

(** A matrix as handed to tensor.New: rows, columns, backing (mnist.go:95, :133). *)
Record mat := Mat { mRows : nat; mCols : nat; mData : list spec_float }.

(** mnist.go:70-97 [prepareX]; M[0] panics without images. *)
Definition prepareX (M : list (list Z)) (dt : dtype) : res mat :=
  match M with
  | [] => Panic
  | m0 :: _ => Ok (Mat (length M) (length m0)
                       (flat_map (map (fun px => store dt (pixelWeight px))) M))
  end.

(** mnist.go:99-135 [prepareY]: ten numbers for each label. *)
Definition prepareY (N : list Z) (dt : dtype) : mat :=
  Mat (length N) 10
      (flat_map (fun l => map (fun j => store dt (if Z.of_nat j =? l then c09 else c01))
                              (seq 0 10)) N).

(** The first argument of Load (mnist.go:35-42). *)
Inductive which := Train | Dev | Test | OtherName.

(** mnist.go:24-56 [Load].  [fs] opens the four files by their names: labels and images of the
    training set, labels and images of the test set.  For any other name the path is empty and
    os.Open fails. *)
Record files := Files { trainL : option (list Z); trainI : option (list Z);
                        testL : option (list Z); testI : option (list Z) }.

(** mnist.go:24-56 [Load]; labels are read first. *)
Definition load (typ : which) (fs : files) (dt : dtype) : res (mat * mat) :=
  let '(lf, df) := match typ with
                   | Train | Dev => (trainL fs, trainI fs)
                   | Test => (testL fs, testI fs)
                   | OtherName => (None, None)
                   end in
  match readLabelFile lf with
  | Ok labels =>
    match readImageFile df with
    | Ok images =>
      match prepareX images dt with
      | Ok x => Ok (x, prepareY labels dt)
      | Err => Err | Panic => Panic
      end
    | Err => Err | Panic => Panic
    end
  | Err => Err | Panic => Panic
  end.
