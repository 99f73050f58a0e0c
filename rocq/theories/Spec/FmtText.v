(** What formatted numbers look like.  Characters are given by their codes.
    Independent of the model except for the record of formatting options. *)
From Coq Require Import ZArith List.
From Verif Require Import Model.Base Model.Fmt Spec.Digits.
Import ListNotations.
Open Scope Z_scope.

(** The character for the digit [d]: '0'-'9' and then 'A'-'Z' or 'a'-'z'. *)
Definition digit_text (upper : bool) (d : Z) : Z :=
  if d <=? 9 then 48 + d else (if upper then 65 else 97) + (d - 10).

(** [ds] are the digits of [v] in base [radix], most significant first, without
    leading zeros; zero has the single digit 0. *)
Definition canonical (radix v : Z) (ds : list Z) : Prop :=
  digits_ok radix ds /\ num radix (rev ds) = v /\ (ds = [0] \/ hd 0 ds <> 0).

(** The text of a number: sign, prefix, digits. *)
Definition number_text (sgn prefix : list Z) (upper : bool) (ds : list Z) : list Z :=
  sgn ++ prefix ++ map (digit_text upper) ds.

(** The sign: '-' for negative numbers, '+' for others when asked for. *)
Definition sign_text (negative plus : bool) : list Z :=
  if negative then [45] else if plus then [43] else [].

(** How much filling goes to the left of a text that is [pad] characters short. *)
Definition left_fill (a : option alignment) (pad : nat) : nat :=
  match a with
  | Some AlignLeft => 0
  | Some AlignCenter => pad / 2
  | Some AlignRight | None => pad
  end.

(** The complete output: filled up to the requested width, with zeros between
    the prefix and the digits when zero padding is asked for. *)
Definition padded (f : Formatter) (sgn prefix digits : list Z) : list Z :=
  let n := length (sgn ++ prefix ++ digits) in
  let pad := match f_width f with Some w => (Z.to_nat w - n)%nat | None => 0%nat end in
  if f_zero_pad f then sgn ++ prefix ++ repeat 48 pad ++ digits
  else
    let left := left_fill (f_align f) pad in
    repeat (f_fill f) left ++ (sgn ++ prefix ++ digits) ++ repeat (f_fill f) (pad - left).

(** [m] shows the number [v] with the options [f]: canonical digits in base
    [radix], the sign, the prefix, filled up to the width. *)
Definition shows (m : Base.res (list Z)) (f : Formatter) (radix : Z) (upper : bool) (prefix : list Z) (v : Z) : Prop :=
  exists ds, canonical radix (Z.abs v) ds /\
    m = Base.Ok (padded f (sign_text (v <? 0) (f_sign_plus f)) prefix (map (digit_text upper) ds)).

(** The same when no width is asked for. *)
Definition prints (m : Base.res (list Z)) (f : Formatter) (radix : Z) (upper : bool) (prefix : list Z) (v : Z) : Prop :=
  exists ds, canonical radix (Z.abs v) ds /\
    m = Base.Ok (number_text (sign_text (v <? 0) (f_sign_plus f)) prefix upper ds).

(** The width asked for is a [usize]. *)
Definition width_ok (f : Formatter) : Prop := forall w, f_width f = Some w -> 0 <= w.

(** The prefix when the alternate form ([#]) is asked for. *)
Definition alt_prefix (f : Formatter) (c : Z) : list Z := if f_alternate f then [48; c] else [].

(** The text has no fill characters: no width, or zero padding. *)
Definition unfilled (f : Formatter) : Prop := f_width f = None \/ f_zero_pad f = true.

