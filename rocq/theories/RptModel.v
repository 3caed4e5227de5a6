(** Model of repeating a value at run time: sizeOp.Do, valueToInt, repeatOp.Do and
    repeatOp.UsePreallocDo (op_tensor.go, utils.go).  No proofs in this file.

    Simplifications common to the file: numbers are rationals (a float is the
    rational it stands for; infinities and not-a-numbers are left out); a boolean
    is 0 or 1; tensors are contiguous, in row-major order. *)
From Coq Require Import ZArith QArith List Bool Arith.
From Verif Require Import BroadcastModel.
Import ListNotations.
Open Scope nat_scope.

(** The types of the values (values_primitives.go; tensor.Dtype, library). *)
Inductive dty := DF64 | DF32 | DI | DI32 | DI64 | DU8 | DB.
(** Equality of types (the comparison of tensor.Dtype, library; op_tensor.go:441). *)
Definition dty_eqb (a b : dty) : bool :=
  match a, b with
  | DF64, DF64 | DF32, DF32 | DI, DI | DI32, DI32 | DI64, DI64 | DU8, DU8 | DB, DB => true
  | _, _ => false
  end.

(** values.go [Value]: a scalar or a tensor (type, shape, entries). *)
Inductive value :=
| VS (t : dty) (x : Q)
| VT (t : dty) (s : list nat) (d : list Q).

(** The conversion of an integer to a float with [p] bits (float32(size) and
    float64(size), op_tensor.go:129-131): to the nearest, ties to even. *)
Definition roundBits (p : Z) (n : Z) : Z :=
  let e := Z.max 0 (Z.log2 n + 1 - p) in
  let u := (2 ^ e)%Z in
  let q := (n / u)%Z in
  let r := (n mod u)%Z in
  if (2 * r <? u)%Z then (q * u)%Z
  else if (u <? 2 * r)%Z then ((q + 1) * u)%Z
  else if Z.even q then (q * u)%Z else ((q + 1) * u)%Z.

(** op_tensor.go:107-140 [sizeOp.Do]; [axis] may be negative.  Line 115 [one] gives
    the 1 of the type of the scalar. *)
Definition sizeDo (axis : Z) (x : value) : res value :=
  match x with
  | VS DB _ => Ok (VS DI 1)
  | VS t _ => Ok (VS t 1)
  | VT t s _ =>
      if (Z.of_nat (length s) <=? axis)%Z then Err
      else if (axis <? 0)%Z then Panic
      else match nth_error s (Z.to_nat axis) with
           | None => Panic
           | Some n =>
               match t with
               | DF64 => Ok (VS DF64 (inject_Z (roundBits 53 (Z.of_nat n))))
               | DF32 => Ok (VS DF32 (inject_Z (roundBits 24 (Z.of_nat n))))
               | DI => Ok (VS DI (inject_Z (Z.of_nat n)))
               | _ => Err
               end
           end
  end.

(** utils.go:61-80 [valueToInt]: a float is cut towards zero. *)
Definition valueToInt (v : value) : res Z :=
  match v with
  | VS DB _ => Err
  | VS _ x => Ok (Z.quot (Qnum x) (Zpos (Qden x)))
  | VT _ _ _ => Err
  end.

(** utils.go:83-109 [valuesToInts]. *)
Fixpoint valuesToInts (vs : list value) : res (list Z) :=
  match vs with
  | [] => Ok []
  | v :: r => match valueToInt v with
              | Ok z => match valuesToInts r with Ok l => Ok (z :: l) | Err => Err | Panic => Panic end
              | Err => Err
              | Panic => Panic
              end
  end.

(** utils.go:123-146 [intRange]: up or down from [start], [end] left out. *)
Definition intRange (start fin : Z) : list Z :=
  let size := if (fin <? start)%Z then (start - fin)%Z else (fin - start)%Z in
  map (fun i => if (fin <? start)%Z then (start - Z.of_nat i)%Z else (start + Z.of_nat i)%Z)
      (seq 0 (Z.to_nat size)).

(** tensor.Repeat on the entries (library, called at op_tensor.go:387): pieces of
    [inner] entries, every piece [rep] times; [fuel] bounds the number of pieces. *)
Fixpoint spreadF (fuel inner rep : nat) (d : list Q) : list Q :=
  match fuel with
  | O => []
  | S f => match d with
           | [] => []
           | _ => concat (repeat (firstn inner d) rep) ++ spreadF f inner rep (skipn inner d)
           end
  end.
(** The product of the sizes (tensor.Shape.TotalSize, library, as used by Repeat,
    op_tensor.go:387). *)
Definition total (s : list nat) : nat := fold_right Nat.mul 1 s.
(** Replacing one size (tensor.Repeat, library, called at op_tensor.go:387). *)
Fixpoint setAt (s : list nat) (i v : nat) : list nat :=
  match s, i with
  | [], _ => []
  | _ :: r, O => v :: r
  | a :: r, S i' => a :: setAt r i' v
  end.
(** tensor.Repeat (library, called at op_tensor.go:387): a scalar becomes a vector,
    a vector gets unit axes up to the wanted one, any other axis out of range is
    refused.  Counts below one are refused here (the library's behaviour for them
    is not modelled). *)
Definition libRepeat (s : list nat) (d : list Q) (along : nat) (rep : Z) : res (list nat * list Q) :=
  if (rep <? 1)%Z then Err
  else
    let k := Z.to_nat rep in
    let s1 := match s with
              | [] => [1]
              | [n] => n :: repeat 1 along
              | _ => s
              end in
    match nth_error s1 along with
    | None => Err
    | Some n => Ok (setAt s1 along (n * k), spreadF (length d) (total (skipn (S along) s1)) k d)
    end.

(** op_tensor.go:354-393 [repeatOp.Do]. *)
Definition repeatDo (along : nat) (x count : value) : res value :=
  match valueToInt count with
  | Err => Err
  | Panic => Panic
  | Ok rep =>
      let '(t, s, d) := match x with VS t a => (t, [], [a]) | VT t s d => (t, s, d) end in
      if (rep =? 1)%Z then Ok (VT t s d)
      else match libRepeat s d along rep with
           | Ok (s', d') => Ok (VT t s' d')
           | Err => Err
           | Panic => Panic
           end
  end.

(** tensor.Shape.IsScalarEquiv (library, called at op_tensor.go:436). *)
Definition scalarEquiv (s : list nat) : bool := forallb (Nat.eqb 1) s.

(** op_tensor.go:411-472 [repeatOp.UsePreallocDo].  Lines 430-432: the error of
    Memset on another type is dropped.  Lines 439-458: the four cases of the
    switch; a preallocated scalar or one of another type fails the assertion
    (panic).  Line 468 [Copy] (values_utils.go:169-, on tensors of one size and
    type).  Line 471 tensor.RepeatReuse (library): the shape must be that of the
    result. *)
Definition repeatPrealloc (pre : value) (along : nat) (x count : value) : res value :=
  match pre with
  | VS _ _ => Err
  | VT pt ps pd =>
      match valueToInt count with
      | Err => Err
      | Panic => Panic
      | Ok rep =>
          match x with
          | VS t a => Ok (VT pt ps (if dty_eqb t pt then map (fun _ => a) pd else pd))
          | VT t s d =>
              if scalarEquiv s then
                match t with
                | DF64 | DF32 =>
                    if dty_eqb t pt && negb (match ps with [] => true | _ => false end)
                    then match d with
                         | a :: _ => Ok (VT pt ps (map (fun _ => a) pd))
                         | [] => Panic
                         end
                    else Panic
                | _ => Ok (VT pt ps pd)
                end
              else if (rep =? 1)%Z then
                if dty_eqb t pt && (length pd =? length d) then Ok (VT pt ps d) else Err
              else match libRepeat s d along rep with
                   | Ok (s', d') =>
                       if dty_eqb t pt && (if list_eq_dec Nat.eq_dec ps s' then true else false)
                       then Ok (VT pt ps d') else Err
                   | Err => Err
                   | Panic => Panic
                   end
          end
      end
  end.
