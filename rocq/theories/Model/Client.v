(** Clients of the whole library: besides the arithmetic of Model/Program.v they parse
    and format, convert to floating point and to serialized form, compute extended
    gcds, and create rings and calculate in them.  This file has no counterpart in
    /repo; every call runs one function of the model, and the functions cite their
    sources.

    Rings and elements are kept in variables too.  Rust's borrow checker forbids
    overwriting a ring that elements refer to; here the elements keep it alive, so
    programs here can do more, not less.  A new ring gets an address that no ring had
    before; Rust may reuse the address of a dropped ring, which no element can refer to. *)
From Verif Require Import Model.Base Model.Words Model.Memory Model.FastDivide Model.Mul Model.Div Model.Buffer
  Model.UBig Model.IBig Model.Convert Model.AddOps Model.MulOps Model.ShiftOps Model.Bits Model.DivOps Model.PrimOps
  Model.Gcd Model.Pow Model.Radix Model.Parse Model.Fmt Model.Float Model.Serde Model.Modular Model.ModularFmt Model.Program.

(** Operations on two elements: src/modular/add.rs:37-162, src/modular/mul.rs:17-79,
    src/modular/div.rs:31-84. *)
Inductive mbin := MAdd | MSub | MMul | MDiv.

(** [k] selects the form of the operation; [d] and others before it are the variables
    written.  [u] stands for UBig, [i] for IBig, [r] for rings and [m] for elements.
    No counterpart in /repo. *)
Inductive call :=
| CBase (i : instr)
| CUParse (radix : Z) (s : list Z) (d : nat)
| CIParse (radix : Z) (s : list Z) (d : nat)
| CUParsePrefix (s : list Z) (d : nat)
| CIParsePrefix (s : list Z) (d : nat)
| CUText (t : fmt_trait) (f : Formatter) (a : nat)
| CIText (t : fmt_trait) (f : Formatter) (a : nat)
| CUTextRadix (radix : Z) (f : Formatter) (a : nat)
| CITextRadix (radix : Z) (f : Formatter) (a : nat)
| CUFloat (double : bool) (a : nat)
| CIFloat (double : bool) (a : nat)
| CUExtGcd (g x y a b : nat)
| CIExtGcd (g x y a b : nat)
| CUSer (a : nat)
| CISer (a : nat)
| CUDe (hint : option Z) (es : list Z) (d : nat)
| CIDe (s : sign) (hint : option Z) (es : list Z) (d : nat)
| CRing (r a : nat)
| CRingModulus (d r : nat)
| CRingEq (r s : nat)
| CRingText (t : fmt_trait) (f : Formatter) (r : nat)
| CMFromU (ref : bool) (m r a : nat)
| CMFromI (ref : bool) (m r a : nat)
| CMFromPrim (sg : bool) (tb x : Z) (m r : nat)
| CMFromBool (x : bool) (m r : nat)
| CM2 (op : mbin) (k m x y : nat)
| CMNeg (k m x : nat)
| CMPow (m x a : nat)
| CMPowSigned (m x a : nat)
| CMInverse (m x : nat)
| CMResidue (d x : nat)
| CMEq (x y : nat)
| CMClone (m x : nat)
| CMCloneFrom (m x : nat)
| CMText (t : fmt_trait) (f : Formatter) (x : nat).

(** What a call shows.  No counterpart in /repo. *)
Inductive seen :=
| Base (o : obs)
| Text (s : list Z)
| Error (e : parse_error)
| Serial (s : sign) (n : Z) (es : list Z).

(** No counterpart in /repo. *)
Definition app := list seen -> option call.

Section Client.
Context {A : Arch} (be : bool).

(** src/modular/add.rs:37-162, src/modular/mul.rs:17-79, src/modular/div.rs:31-84 *)
Definition mbin_fns (op : mbin) : list (modulo -> modulo -> res modulo) :=
  match op with
  | MAdd => [mod_add_vv; mod_add_vr; mod_add_rv; mod_add_rr; mod_add_assign_v; mod_add_assign_r]
  | MSub => [mod_sub_vv; mod_sub_vr; mod_sub_rv; mod_sub_rr; mod_sub_assign_v; mod_sub_assign_r]
  | MMul => [mod_mul_vv; mod_mul_vr; mod_mul_rv; mod_mul_rr; mod_mul_assign_v; mod_mul_assign_r]
  | MDiv => [mod_div_vv; mod_div_vr; mod_div_rv; mod_div_rr; mod_div_assign_v; mod_div_assign_r]
  end.

(** src/fmt/mod.rs:89-158 *)
Definition ibig_fmt (t : fmt_trait) (x : ibig) (f : Formatter) : res (list Z) :=
  match t with
  | TDisplay => ibig_display be x f
  | TDebug => ibig_debug be x f
  | TBinary => ibig_binary be x f
  | TOctal => ibig_octal be x f
  | TLowerHex => ibig_lower_hex be x f
  | TUpperHex => ibig_upper_hex be x f
  end.

(** The variables, and the address of the next ring.  No counterpart in /repo. *)
Record world := mkWorld { nums : state; rings : nat -> option ring; mods : nat -> option modulo; fresh : Z }.

(** No counterpart in /repo. *)
Definition with_nums (w : world) (st : state) : world := mkWorld st (rings w) (mods w) (fresh w).
(** No counterpart in /repo. *)
Definition put_u (w : world) (d : nat) (u : ubig) : world := with_nums w (setu (nums w) d u).
(** No counterpart in /repo. *)
Definition put_i (w : world) (d : nat) (x : ibig) : world := with_nums w (seti (nums w) d x).
(** No counterpart in /repo. *)
Definition put_m (w : world) (d : nat) (m : modulo) : world :=
  mkWorld (nums w) (rings w) (setv (mods w) d (Some m)) (fresh w).

(** Nothing happens when a variable for a ring or an element is empty.  No counterpart in /repo. *)
Definition on {T} (o : option T) (w : world) (k : T -> res (world * seen)) : res (world * seen) :=
  match o with Some x => k x | None => Ok (w, Base ONone) end.

(** The result is stored.  No counterpart in /repo. *)
Definition result_m (w : world) (d : nat) (r : res modulo) : res (world * seen) :=
  m <- r ;; Ok (put_m w d m, Base ONone).

(** No counterpart in /repo. *)
Definition parsed_u (w : world) (d : nat) (r : res (presult ubig)) : res (world * seen) :=
  p <- r ;; match p with POk u => Ok (put_u w d u, Base (OBool true)) | PErr e => Ok (w, Error e) end.
(** No counterpart in /repo. *)
Definition parsed_i (w : world) (d : nat) (r : res (presult ibig)) : res (world * seen) :=
  p <- r ;; match p with POk x => Ok (put_i w d x, Base (OBool true)) | PErr e => Ok (w, Error e) end.

(** The result is seen.  No counterpart in /repo. *)
Definition show {T} (w : world) (k : T -> seen) (r : res T) : res (world * seen) := x <- r ;; Ok (w, k x).

(** One call of the library.  No counterpart in /repo. *)
Definition call_step (c : call) (w : world) : res (world * seen) :=
  let u := us (nums w) in let i := is (nums w) in
  match c with
  | CBase c => '(st, o) <- step c (nums w) ;; Ok (with_nums w st, Base o)
  | CUParse radix s d => parsed_u w d (ubig_from_str_radix s radix)
  | CIParse radix s d => parsed_i w d (ibig_from_str_radix s radix)
  | CUParsePrefix s d => parsed_u w d (ubig_from_str_with_radix_prefix s)
  | CIParsePrefix s d => parsed_i w d (ibig_from_str_with_radix_prefix s)
  | CUText t f a => show w Text (ubig_fmt be t (u a) f)
  | CIText t f a => show w Text (ibig_fmt t (i a) f)
  | CUTextRadix radix f a => show w Text (ubig_in_radix_text be (u a) radix f)
  | CITextRadix radix f a => show w Text (ibig_in_radix_text be (i a) radix f)
  | CUFloat double a => show w (fun b => Base (ONum b)) (ubig_to_float (if double then f64 else f32) (u a))
  | CIFloat double a => show w (fun b => Base (ONum b)) (ibig_to_float (if double then f64 else f32) (i a))
  | CUExtGcd g x y a b =>
      r <- ubig_extended_gcd (u a) (u b) ;;
      let '(vg, vx, vy) := r in Ok (put_i (put_i (put_u w g vg) x vx) y vy, Base ONone)
  | CIExtGcd g x y a b =>
      r <- ibig_extended_gcd (i a) (i b) ;;
      let '(vg, vx, vy) := r in Ok (put_i (put_i (put_i w g vg) x vx) y vy, Base ONone)
  | CUSer a => '(n, es) <- ubig_serialize (u a) ;; Ok (w, Serial Positive n es)
  | CISer a => r <- ibig_serialize (i a) ;; let '(s, (n, es)) := r in Ok (w, Serial s n es)
  | CUDe hint es d => v <- ubig_deserialize hint es ;; Ok (put_u w d v, Base ONone)
  | CIDe s hint es d => v <- ibig_deserialize s hint es ;; Ok (put_i w d v, Base ONone)
  | CRing r a =>
      x <- ring_new (fresh w) (u a) ;;
      Ok (mkWorld (nums w) (setv (rings w) r (Some x)) (mods w) (fresh w + 1), Base ONone)
  | CRingModulus d r => on (rings w r) w (fun r => v <- ring_modulus r ;; Ok (put_u w d v, Base ONone))
  | CRingEq r s => on (rings w r) w (fun r => on (rings w s) w (fun s => Ok (w, Base (OBool (ring_eqb r s)))))
  | CRingText t f r => on (rings w r) w (fun r => show w Text (ring_fmt be None t r f))
  | CMFromU ref m r a => on (rings w r) w (fun r =>
      result_m w m (if ref then ubig_ref_into_modulo (u a) r else ubig_into_modulo (u a) r))
  | CMFromI ref m r a => on (rings w r) w (fun r =>
      result_m w m (if ref then ibig_ref_into_modulo (i a) r else ibig_into_modulo (i a) r))
  | CMFromPrim sg tb x m r => on (rings w r) w (fun r =>
      result_m w m (if sg then signed_into_modulo tb x r else unsigned_into_modulo tb x r))
  | CMFromBool x m r => on (rings w r) w (fun r => result_m w m (bool_into_modulo x r))
  | CM2 op k m x y => on (mods w x) w (fun x => on (mods w y) w (fun y =>
      on (nth_error (mbin_fns op) k) w (fun f => result_m w m (f x y))))
  | CMNeg k m x => on (mods w x) w (fun x =>
      on (nth_error [mod_neg_v; mod_neg_r] k) w (fun f => result_m w m (f x)))
  | CMPow m x a => on (mods w x) w (fun x => result_m w m (mod_pow x (u a)))
  | CMPowSigned m x a => on (mods w x) w (fun x => result_m w m (mod_pow_signed x (i a)))
  | CMInverse m x => on (mods w x) w (fun x =>
      o <- inverse x ;;
      match o with Some y => Ok (put_m w m y, Base (OBool true)) | None => Ok (w, Base (OBool false)) end)
  | CMResidue d x => on (mods w x) w (fun x => v <- residue x ;; Ok (put_u w d v, Base ONone))
  | CMEq x y => on (mods w x) w (fun x => on (mods w y) w (fun y => show w (fun b => Base (OBool b)) (modulo_eq x y)))
  | CMClone m x => on (mods w x) w (fun x => Ok (put_m w m (mod_clone x), Base ONone))
  | CMCloneFrom m x => on (mods w x) w (fun x => on (mods w m) w (fun old =>
      Ok (put_m w m (mod_clone_from old x), Base ONone)))
  | CMText t f x => on (mods w x) w (fun x => show w Text (modulo_fmt be None t x f))
  end.

(** At most [n] calls.  The trace has the latest observation first.
    No counterpart in /repo. *)
Fixpoint call_run (n : nat) (c : app) (tr : list seen) (w : world) : res (list seen * world) :=
  match n with
  | O => Ok (tr, w)
  | S n => match c tr with
           | None => Ok (tr, w)
           | Some c1 => '(w, o) <- call_step c1 w ;; call_run n c (o :: tr) w
           end
  end.

End Client.
