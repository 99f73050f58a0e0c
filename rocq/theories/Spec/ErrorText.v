(** The messages that a caller can meet. *)
From Verif Require Import Model.Base Model.Errors.

(** A radix is a [u32]. *)
Definition site_ok (s : site) : Prop := match s with AtRadix r => 0 <= r < 2 ^ 32 | _ => True end.
