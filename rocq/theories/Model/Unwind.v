(** What a function that takes [&mut self] leaves in [self] when it panics, which a
    caller sees after catching the panic with [std::panic::catch_unwind]:
    src/add_ops.rs, src/mul_ops.rs, src/div_ops.rs, src/bits.rs, src/shift_ops.rs,
    src/ubig.rs, src/buffer.rs, src/modular/add.rs, src/modular/mul.rs,
    src/modular/div.rs, src/modular/modulo.rs.  Definitions only.

    The other files of the model return the new value of [self], or the panic.  Here the
    functions store into [self] where the code does. *)
From Verif Require Import Model.Base Model.Words Model.Memory Model.Add Model.FastDivide Model.Mul Model.Div Model.RawMemory Model.Buffer
  Model.UBig Model.IBig Model.Convert Model.AddOps Model.MulOps Model.ShiftOps Model.Bits Model.DivOps Model.PrimOps
  Model.Fmt Model.Modular Model.Program Model.Client.

(** A function with a [&mut S]: what it leaves there, and what it returns or how it
    panics.  E.g. src/add_ops.rs:83 *)
Definition cell (S T : Type) : Type := S -> S * res T.

(** Statements in sequence.  E.g. src/div_ops.rs:1451-1452 *)
Definition cret {S T} (x : T) : cell S T := fun s => (s, Ok x).
Definition cbind {S T U} (m : cell S T) (k : T -> cell S U) : cell S U :=
  fun s => let (s, r) := m s in match r with Ok x => k x s | Panic p => (s, Panic p) end.
Notation "x <! m ;; k" := (cbind m (fun x => k)) (at level 61, m at next level, right associativity).

(** Reading and storing; a computation that does not touch [self]; [mem::take], which
    leaves the default value.  E.g. src/modular/div.rs:82, src/add_ops.rs:84 *)
Definition fetch {S} : cell S S := fun s => (s, Ok s).
Definition store {S} (v : S) : cell S unit := fun _ => (v, Ok tt).
Definition aside {S T} (r : res T) : cell S T := fun s => (s, r).
Definition take {S} (default : S) : cell S S := fun s => (default, Ok s).

(** A function that changes [self] after its assertions.  E.g. src/modular/add.rs:252 *)
Definition in_place {S T} (f : S -> res (S * T)) : cell S T :=
  s <! fetch ;; r <! aside (f s) ;; let (s, x) := r in _ <! store s ;; cret x.

(** A function on the payload of a variant of [self], which is [s].
    E.g. src/modular/add.rs:85-86 *)
Definition payload {S U} (variant : S -> U) (s : S) (m : cell S unit) : cell U unit :=
  fun _ => let (s, r) := m s in (variant s, r).

Section Unwind.
Context {A : Arch}.

(** src/convert.rs:14-20 *)
Definition ubig_default : ubig := from_word 0.
(** src/convert.rs:22-28 *)
Definition ibig_default : ibig := ibig_from_ubig (from_word 0).

(** [*self = mem::take(self) op rhs].  E.g. src/add_ops.rs:84 *)
Definition retake {S} (default : S) (f : S -> res S) : cell S unit :=
  x <! take default ;; v <! aside (f x) ;; store v.
Definition uretake (f : ubig -> ubig -> res ubig) (rhs : ubig) : cell ubig unit :=
  retake ubig_default (fun u => f u rhs).
Definition iretake (f : ibig -> ibig -> res ibig) (rhs : ibig) : cell ibig unit :=
  retake ibig_default (fun x => f x rhs).

(** ** UBig *)

(** The assignment operators, by value and by reference: src/add_ops.rs:83-92, 153-162,
    src/mul_ops.rs:73-82, src/bits.rs:358-367, 447-456, 544-553,
    src/div_ops.rs:103-112, 199-208 *)
Definition uassign (op : ubin) : option ((ubig -> cell ubig unit) * (ubig -> cell ubig unit)) :=
  match op with
  | UAdd => Some (uretake ubig_add_vv, uretake ubig_add_vr)
  | USub => Some (uretake ubig_sub_vv, uretake ubig_sub_vr)
  | UMul => Some (uretake ubig_mul_vv, uretake ubig_mul_vr)
  | UAnd => Some (uretake ubig_and_vv, uretake ubig_and_vr)
  | UOr => Some (uretake ubig_or_vv, uretake ubig_or_vr)
  | UXor => Some (uretake ubig_xor_vv, uretake ubig_xor_vr)
  | UDiv => Some (uretake ubig_div_vv, uretake ubig_div_vr)
  | URem => Some (uretake ubig_rem_vv, uretake ubig_rem_vr)
  | UAndNot | UGcd => None
  end.

(** src/shift_ops.rs:39-41, 46-48, 71-73, 78-80 *)
Definition ushl_assign (n : Z) : cell ubig unit := retake ubig_default (fun u => ubig_shl_v u n).
Definition ushr_assign (n : Z) : cell ubig unit := retake ubig_default (fun u => ubig_shr_v u n).

(** src/bits.rs:54-65 *)
Definition set_bit_at (n : Z) : cell ubig unit :=
  u <! take ubig_default ;;
  match u with
  | Small w =>
      if n <? wbits then store (from_word (Z.lor w (shl_w 1 n)))
      else v <! aside (with_bit_word_slow w n) ;; store v
  | Large b => v <! aside (with_bit_large b n) ;; store v
  end.

(** src/bits.rs:100-109 *)
Definition clear_bit_at (n : Z) : cell ubig unit :=
  u <! take ubig_default ;;
  match u with
  | Small w => if n <? wbits then store (from_word (Z.land w (not_w (shl_w 1 n)))) else cret tt
  | Large b => v <! aside (without_bit_large b n) ;; store v
  end.

(** src/buffer.rs:142-150; [Vec::clone_from] does not fail after the assertion of
    src/buffer.rs:192. *)
Definition resizing_clone_from_at (source : Buffer) : cell Buffer unit :=
  b <! fetch ;; v <! aside (resizing_clone_from b source) ;; store v.

(** src/ubig.rs:131-139 *)
Definition uclone_from_at (source : ubig) : cell ubig unit :=
  u <! fetch ;;
  match u, source with
  | Large b, Large s => payload Large b (resizing_clone_from_at s)
  | _, _ => v <! aside (ubig_clone source) ;; store v
  end.

(** [*self op= UBig::from_unsigned(rhs)].  E.g. src/add_ops.rs:614 *)
Definition uafter (f : ubig -> ubig -> res ubig) (tb x : Z) : cell ubig unit :=
  p <! aside (ubig_from_unsigned tb x) ;; uretake f p.

(** src/add_ops.rs:613-615, 628-630, 643-645, 658-660, src/mul_ops.rs:354-356, 369-371,
    src/bits.rs:1374-1376, 1389-1391, 1404-1406, 1434-1436, 1449-1451, 1464-1466,
    src/div_ops.rs:1389-1391, 1404-1406, 1431-1433, 1450-1453 *)
Definition uassign_prim (sg : bool) (op : prim_op) : option (Z -> Z -> cell ubig unit) :=
  match op, sg with
  | PAdd, false => Some (uafter ubig_add_vv)
  | PSub, false => Some (uafter ubig_sub_vv)
  | PMul, false => Some (uafter ubig_mul_vv)
  | PAnd, false => Some (uafter ubig_and_vv)
  | POr, false => Some (uafter ubig_or_vv)
  | PXor, false => Some (uafter ubig_xor_vv)
  | PDiv, false => Some (uafter ubig_div_vv)
  | PRem, false => Some (uafter ubig_rem_vv)
  | PAdd, true => Some (fun tb x => retake ubig_default (fun u => ubig_add_signed tb u x))
  | PSub, true => Some (fun tb x => retake ubig_default (fun u => ubig_sub_signed tb u x))
  | PMul, true => Some (fun tb x => retake ubig_default (fun u => ubig_mul_signed tb u x))
  | PAnd, true => Some (fun tb x => retake ubig_default (fun u => ubig_and_signed tb u x))
  | POr, true => Some (fun tb x => retake ubig_default (fun u => ubig_or_signed tb u x))
  | PXor, true => Some (fun tb x => retake ubig_default (fun u => ubig_xor_signed tb u x))
  | PDiv, true => Some (fun tb x => retake ubig_default (fun u => ubig_div_signed tb u x))
  | PRem, true => Some (fun tb x =>
      u <! take ubig_default ;;
      p <! aside (ibig_from_signed tb x) ;;
      r <! aside (ibig_rem_vv (ibig_from_ubig u) p) ;;
      v <! aside (from_ibig_panic_on_overflow r) ;; store v)
  | _, _ => None
  end.

(** ** IBig *)

(** src/add_ops.rs:224-233, 281-290, src/mul_ops.rs:129-138, src/bits.rs:720-729, 785-794,
    850-859, src/div_ops.rs:459-468, 521-530 *)
Definition iassign (op : ibin) : option ((ibig -> cell ibig unit) * (ibig -> cell ibig unit)) :=
  match op with
  | IAdd => Some (iretake ibig_add_vv, iretake ibig_add_vr)
  | ISub => Some (iretake ibig_sub_vv, iretake ibig_sub_vr)
  | IMul => Some (iretake ibig_mul_vv, iretake ibig_mul_vr)
  | IAnd => Some (iretake ibig_and_vv, iretake ibig_and_vr)
  | IOr => Some (iretake ibig_or_vv, iretake ibig_or_vr)
  | IXor => Some (iretake ibig_xor_vv, iretake ibig_xor_vr)
  | IDiv => Some (iretake ibig_div_vv, iretake ibig_div_vr)
  | IRem => Some (iretake ibig_rem_vv, iretake ibig_rem_vr)
  | IAndNot | IDivE | IRemE | IGcd => None
  end.

(** src/shift_ops.rs:39-41, 46-48, 71-73, 78-80 *)
Definition ishl_assign (n : Z) : cell ibig unit := retake ibig_default (fun x => ibig_shl_v x n).
Definition ishr_assign (n : Z) : cell ibig unit := retake ibig_default (fun x => ibig_shr_v x n).

(** Derived [Clone::clone_from] is [*self = source.clone()].  E.g. src/ibig.rs:24 *)
Definition iclone_from_at (source : ibig) : cell ibig unit := v <! aside (ibig_clone source) ;; store v.

(** [*self op= IBig::from(rhs)].  E.g. src/add_ops.rs:751 *)
Definition iafter (f : ibig -> ibig -> res ibig) (sg : bool) (tb x : Z) : cell ibig unit :=
  p <! aside (ibig_from_prim sg tb x) ;; iretake f p.

(** src/add_ops.rs:747-752, 771-776, src/mul_ops.rs:392-397, src/bits.rs:1505-1510,
    1529-1534, 1553-1558, src/div_ops.rs:1530-1535, 1558-1563 *)
Definition iassign_prim (op : prim_op) : option (bool -> Z -> Z -> cell ibig unit) :=
  match op with
  | PAdd => Some (iafter ibig_add_vv)
  | PSub => Some (iafter ibig_sub_vv)
  | PMul => Some (iafter ibig_mul_vv)
  | PAnd => Some (iafter ibig_and_vv)
  | POr => Some (iafter ibig_or_vv)
  | PXor => Some (iafter ibig_xor_vv)
  | PDiv => Some (iafter ibig_div_vv)
  | PRem => Some (iafter ibig_rem_vv)
  | PSubFrom | PAndNot | PDivE | PRemE => None
  end.

(** ** Modulo *)

(** src/modular/modulo.rs:114-117 *)
Definition set_raw_at (raw : Z) : cell modulo_small unit :=
  m <! fetch ;; v <! aside (set_raw m raw) ;; store v.

(** src/modular/modulo.rs:152-158 *)
Definition modify_at (f : ring_large -> cell (list Z) unit) : cell modulo_large unit :=
  m <! fetch ;;
  _ <! payload (mkModuloLarge (ml_ring m)) (ml_value m) (f (ml_ring m)) ;;
  m <! fetch ;;
  ok <! aside (large_is_valid (ml_ring m) (ml_value m)) ;;
  aside (check ok ;; Ok tt).

(** src/modular/add.rs:215-218 *)
Definition small_add_at (rhs : modulo_small) : cell modulo_small unit :=
  m <! fetch ;;
  _ <! aside (small_check_same_ring m rhs) ;;
  raw <! aside (raw_add (ms_raw m) (ms_raw rhs) (ms_ring m)) ;; set_raw_at raw.

(** src/modular/add.rs:222-225 *)
Definition small_sub_at (rhs : modulo_small) : cell modulo_small unit :=
  m <! fetch ;;
  _ <! aside (small_check_same_ring m rhs) ;;
  raw <! aside (raw_sub (ms_raw m) (ms_raw rhs) (ms_ring m)) ;; set_raw_at raw.

(** src/modular/add.rs:247-258: the words are changed once or twice. *)
Definition large_add_at (rhs : modulo_large) : cell modulo_large unit :=
  m <! fetch ;;
  _ <! aside (large_check_same_ring m rhs) ;;
  modify_at (fun r =>
    overflow <! in_place (fun ws => add_same_len_in_place ws (ml_value rhs)) ;;
    ws <! fetch ;;
    c <! aside (if overflow : bool then Ok true
                else c <- cmp_same_len ws (rl_modulus r) ;; Ok (match c with Lt => false | _ => true end)) ;;
    if c : bool then
      overflow2 <! in_place (fun ws => sub_same_len_in_place ws (rl_modulus r)) ;;
      aside (check Bool.eqb overflow overflow2 ;; Ok tt)
    else cret tt).

(** src/modular/add.rs:261-272 *)
Definition large_sub_at (rhs : modulo_large) : cell modulo_large unit :=
  m <! fetch ;;
  _ <! aside (large_check_same_ring m rhs) ;;
  modify_at (fun r =>
    overflow <! in_place (fun ws => sub_same_len_in_place ws (ml_value rhs)) ;;
    if overflow : bool then
      overflow2 <! in_place (fun ws => add_same_len_in_place ws (rl_modulus r)) ;;
      aside (check overflow2 ;; Ok tt)
    else cret tt).

(** src/modular/add.rs:81-94, 74-79 *)
Definition mod_add_at (rhs : modulo) : cell modulo unit :=
  m <! fetch ;;
  match m, rhs with
  | MSmall a, MSmall b => payload MSmall a (small_add_at b)
  | MLarge a, MLarge b => payload MLarge a (large_add_at b)
  | _, _ => aside (Panic DifferentRings)
  end.

(** src/modular/add.rs:149-162, 142-147 *)
Definition mod_sub_at (rhs : modulo) : cell modulo unit :=
  m <! fetch ;;
  match m, rhs with
  | MSmall a, MSmall b => payload MSmall a (small_sub_at b)
  | MLarge a, MLarge b => payload MLarge a (large_sub_at b)
  | _, _ => aside (Panic DifferentRings)
  end.

(** src/modular/mul.rs:96-99 *)
Definition small_mul_at (rhs : modulo_small) : cell modulo_small unit :=
  m <! fetch ;;
  _ <! aside (small_check_same_ring m rhs) ;;
  raw <! aside (raw_mul (ms_raw m) (ms_raw rhs) (ms_ring m)) ;; set_raw_at raw.

(** src/modular/mul.rs:137-139, 149-157: the product is made in scratch memory. *)
Definition large_mul_at (rhs : modulo_large) (mem : Z) : cell modulo_large unit :=
  modify_at (fun r =>
    ws <! fetch ;;
    p <! aside (mul_normalized r ws (ml_value rhs) mem) ;;
    v <! aside (copy_slice ws p) ;; store v).

(** src/modular/mul.rs:61-79, 54-59 *)
Definition mod_mul_at (rhs : modulo) : cell modulo unit :=
  m <! fetch ;;
  match m, rhs with
  | MSmall a, MSmall b =>
      _ <! aside (small_check_same_ring a b) ;;
      payload MSmall a (small_mul_at b)
  | MLarge a, MLarge b =>
      _ <! aside (large_check_same_ring a b) ;;
      l <! aside (ring_mul_layout word_ty (length (rl_modulus (ml_ring a)))) ;;
      mem <! aside (new_memory l) ;;
      payload MLarge a (large_mul_at b mem)
  | _, _ => aside (Panic DifferentRings)
  end.

(** src/modular/div.rs:79-84, 72-77 *)
Definition mod_div_at (rhs : modulo) : cell modulo unit :=
  m <! fetch ;; v <! aside (mod_div_rr m rhs) ;; store v.

(** All assignment operators of elements; the forms by value call those by reference.
    E.g. src/modular/add.rs:76-78 *)
Definition massign (op : mbin) : modulo -> cell modulo unit :=
  match op with
  | MAdd => mod_add_at
  | MSub => mod_sub_at
  | MMul => mod_mul_at
  | MDiv => mod_div_at
  end.

(** src/modular/modulo.rs:211-220: the ring is stored first; neither the copy nor the clone
    of the words can panic after that ([Vec::clone] aborts when there is no memory). *)
Definition large_clone_from_at (source : modulo_large) : cell modulo_large unit :=
  m <! fetch ;;
  _ <! store (mkModuloLarge (ml_ring source) (ml_value m)) ;;
  m <! fetch ;;
  if (length (ml_value m) =? length (ml_value source))%nat then
    v <! aside (copy_slice (ml_value m) (ml_value source)) ;; store (mkModuloLarge (ml_ring m) v)
  else store (mkModuloLarge (ml_ring m) (ml_value source)).

(** src/modular/modulo.rs:192-200, 177-179 *)
Definition mclone_from_at (source : modulo) : cell modulo unit :=
  m <! fetch ;;
  match m, source with
  | MLarge a, MLarge s => payload MLarge a (large_clone_from_at s)
  | _, _ => store (mod_clone source)
  end.

(** ** Clients that catch panics *)

End Unwind.

(** What a client does: a call whose results are stored when it returns (in Rust,
    [d = catch_unwind(|| call)?]), or an operation on a variable [d] in place, which the
    client looks at again also if it panics.  No counterpart in /repo; e.g. the in-place
    operations of src/add_ops.rs:83 *)
Inductive act :=
| Plain (c : call)
| AtU (op : ubin) (by_ref : bool) (d b : nat)
| AtUShl (d : nat) (n : Z)
| AtUShr (d : nat) (n : Z)
| AtUSetBit (d : nat) (n : Z)
| AtUClearBit (d : nat) (n : Z)
| AtUCloneFrom (d b : nat)
| AtUPrim (op : prim_op) (sg : bool) (tb x : Z) (d : nat)
| AtI (op : ibin) (by_ref : bool) (d b : nat)
| AtIShl (d : nat) (n : Z)
| AtIShr (d : nat) (n : Z)
| AtICloneFrom (d b : nat)
| AtIPrim (op : prim_op) (sg : bool) (tb x : Z) (d : nat)
| AtM (op : mbin) (d b : nat)
| AtMCloneFrom (d b : nat).

(** What it sees: the call has returned, or a panic has been caught.
    E.g. src/add_ops.rs:83 *)
Inductive report := Seen (x : seen) | Caught (p : panic).

(** A client goes on after a panic.  E.g. src/add_ops.rs:83 *)
Definition bold_app := list report -> option act.

Section Catch.
Context {A : Arch} (be : bool).

(** No counterpart in /repo. *)
Definition reported (r : res unit) : report :=
  match r with Ok _ => Seen (Base ONone) | Panic p => Caught p end.
(** No counterpart in /repo. *)
Definition at_u (w : world) (d : nat) (m : cell ubig unit) : world * report :=
  let (v, r) := m (us (nums w) d) in (put_u w d v, reported r).
(** No counterpart in /repo. *)
Definition at_i (w : world) (d : nat) (m : cell ibig unit) : world * report :=
  let (v, r) := m (is (nums w) d) in (put_i w d v, reported r).
(** No counterpart in /repo. *)
Definition at_m (w : world) (d : nat) (m : cell modulo unit) : world * report :=
  match mods w d with
  | Some x => let (v, r) := m x in (put_m w d v, reported r)
  | None => (w, Seen (Base ONone))
  end.
(** Nothing happens when there is no such operator or the variable is empty.
    No counterpart in /repo. *)
Definition when {T} (o : option T) (w : world) (k : T -> world * report) : world * report :=
  match o with Some x => k x | None => (w, Seen (Base ONone)) end.

(** One step calls one function of the library.  No counterpart in /repo. *)
Definition act_step (a : act) (w : world) : world * report :=
  let u := us (nums w) in let i := is (nums w) in
  match a with
  | Plain c => match call_step be c w with Ok (w, x) => (w, Seen x) | Panic p => (w, Caught p) end
  | AtU op by_ref d b => when (uassign op) w (fun '(v, r) => at_u w d ((if by_ref then r else v) (u b)))
  | AtUShl d n => at_u w d (ushl_assign n)
  | AtUShr d n => at_u w d (ushr_assign n)
  | AtUSetBit d n => at_u w d (set_bit_at n)
  | AtUClearBit d n => at_u w d (clear_bit_at n)
  | AtUCloneFrom d b => at_u w d (uclone_from_at (u b))
  | AtUPrim op sg tb x d => when (uassign_prim sg op) w (fun f => at_u w d (f tb x))
  | AtI op by_ref d b => when (iassign op) w (fun '(v, r) => at_i w d ((if by_ref then r else v) (i b)))
  | AtIShl d n => at_i w d (ishl_assign n)
  | AtIShr d n => at_i w d (ishr_assign n)
  | AtICloneFrom d b => at_i w d (iclone_from_at (i b))
  | AtIPrim op sg tb x d => when (iassign_prim op) w (fun f => at_i w d (f sg tb x))
  | AtM op d b => when (mods w b) w (fun y => at_m w d (massign op y))
  | AtMCloneFrom d b => when (mods w b) w (fun y => at_m w d (mclone_from_at y))
  end.

(** At most [n] steps; panics do not end the run.  No counterpart in /repo. *)
Fixpoint bold_run (n : nat) (c : bold_app) (tr : list report) (w : world) : list report * world :=
  match n with
  | O => (tr, w)
  | S n => match c tr with
           | None => (tr, w)
           | Some a => let (w, x) := act_step a w in bold_run n c (x :: tr) w
           end
  end.

End Catch.
