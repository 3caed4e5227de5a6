(** Model of the encodings of classes by vectors and indexes: OneHotVector (gorgonia.go:186-208),
    initVocab and maxSample of the character RNN (examples/charRNN/vocab.go, util.go) and
    makeTargets of the stacked autoencoder (examples/stacked_autoencoder/main.go), on the targets
    made by prepareY (MnistModel.v).

    A string is the list of its runes; joining valid UTF-8 strings joins these lists. *)
From Coq Require Import List ZArith Bool.
From Coq.Floats Require Import SpecFloat.
Import ListNotations.
From Verif Require Import BroadcastModel MnistModel.
Local Open Scope Z_scope.

(** charRNN/vocab.go:5. *)
Definition START : Z := 0x02.
(** charRNN/vocab.go:6. *)
Definition END : Z := 0x03.

(** dict[r] after the loop (vocab.go:16-18). *)
Definition dictAt (s : list Z) (r : Z) : Z := Z.of_nat (count_occ Z.eq_dec s r).
(** The keys of dict (vocab.go:16-18). *)
Definition dictKeys (s : list Z) : list Z := nodup Z.eq_dec s.

(** The global [vocab] after initVocab (vocab.go:13-31), from its value [old] before; [order]
    is the order in which the range over the map visits the keys (Go leaves it open). *)
Definition initVocab (order : list Z -> list Z) (old : list Z) (ss : list (list Z)) (thresh : Z) : list Z :=
  let s := concat ss in
  (old ++ [START]) ++ filter (fun ch => thresh <=? dictAt s ch) (order (dictKeys s)) ++ [END].

(** The loop of vocab.go:33-35: the map, from position [i] on. *)
Fixpoint indexLoop (i : nat) (vocab : list Z) (m : Z -> option nat) : Z -> option nat :=
  match vocab with
  | [] => m
  | v :: r => indexLoop (S i) r (fun x => if x =? v then Some i else m x)
  end.
(** vocabIndex[r] afterwards (vocab.go:22, 33-35): 0 for a missing key, as in Go. *)
Definition vocabIndex (vocab : list Z) (r : Z) : nat :=
  match indexLoop 0 vocab (fun _ => None) r with Some i => i | None => 0%nat end.

(** The dtypes of OneHotVector's switch, and the others (gorgonia.go:190-203). *)
Inductive ohType := OhF32 | OhF64 | OhI64 | OhInt | OhI32 | OhOther.
(** OneHotVector (gorgonia.go:186-208), the value of the constant: zeroes with a 1 at [id].
    tensor.New gives zeroes, SetAt fails outside (library); a
    tensor without elements has no place to set. *)
Definition oneHot (id classes : Z) (t : ohType) : res (list Z) :=
  match t with
  | OhOther => Panic
  | _ => if (0 <=? id) && (id <? classes)
         then Ok (map (fun j => if Z.of_nat j =? id then 1 else 0) (seq 0 (Z.to_nat classes)))
         else Panic
  end.
(** tensor.Argmax of a vector (library): the first of the greatest; [best] at index [bi] so far
    (called at charRNN/util.go:24). *)
Fixpoint argmaxFrom (l : list Z) (i bi : nat) (best : Z) : nat :=
  match l with
  | [] => bi
  | x :: r => if best <? x then argmaxFrom r (S i) i x else argmaxFrom r (S i) bi best
  end.
(** maxSample (charRNN/util.go:18-32) of a vector; the panics are those of an empty one. *)
Definition maxSample (l : list Z) : res nat :=
  match l with [] => Panic | x :: r => Ok (argmaxFrom r 1 0 x) end.

(** The inner loop of makeTargets (stacked_autoencoder/main.go:66-71): the first 0.9. *)
Fixpoint findTarget (row : list spec_float) (i : nat) : option nat :=
  match row with [] => None | v :: r => if SFeqb v c09 then Some i else findTarget r (S i) end.
(** makeTargets (stacked_autoencoder/main.go:60-74) of a matrix of float64. *)
Definition makeTargets (m : mat) : list nat :=
  flat_map (fun i => match findTarget (firstn (mCols m) (skipn (i * mCols m) (mData m))) 0 with Some j => [j] | None => [] end)
           (seq 0 (mRows m)).
