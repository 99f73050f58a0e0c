(** Modular arithmetic: src/modular/*.rs.  Definitions only.

    Rings are compared by address (src/modular/cmp.rs:10-37), so a ring carries the
    address it lives at.  A modular number holds a reference to its ring, which the
    model renders as the ring itself; two live rings at the same address are the
    same ring. *)
From Verif Require Import Model.Base Model.Words Model.Add Model.Shift Model.FastDivide Model.DivWord Model.Memory Model.Mul
  Model.Div Model.RawMemory Model.Buffer Model.UBig Model.IBig Model.Convert Model.ShiftOps Model.Bits Model.DivOps Model.PrimOps Model.Gcd.

Section Modular.
Context {A : Arch}.

(** src/modular/modulo_ring.rs:30-34 *)
Record ring_small := mkRingSmall {
  rs_addr : Z;
  rs_modulus : Z;                         (* normalized *)
  rs_shift : Z;
  rs_fast_div : FastDivideNormalized
}.

(** src/modular/modulo_ring.rs:36-40 *)
Record ring_large := mkRingLarge {
  rl_addr : Z;
  rl_modulus : list Z;                    (* normalized *)
  rl_shift : Z;
  rl_fast_div_top : FastDivideNormalized
}.

(** src/modular/modulo_ring.rs:23-28 *)
Inductive ring : Type :=
| RingSmall (r : ring_small)
| RingLarge (r : ring_large).

(** src/modular/modulo_ring.rs:78-88 *)
Definition ring_small_new (addr n : Z) : res ring_small :=
  check negb (n =? 0) ;;
  let shift := leading_zeros_w n in
  let normalized_modulus := shl_w n shift in
  fast_div <- fdn_new normalized_modulus ;;
  Ok (mkRingSmall addr normalized_modulus shift fast_div).

(** src/modular/modulo_ring.rs:108-116 *)
Definition ring_large_new (addr : Z) (n : list Z) : res ring_large :=
  '(normalized_modulus, shift, fast_div_top) <- normalize_large n ;;
  Ok (mkRingLarge addr normalized_modulus shift fast_div_top).

(** src/modular/modulo_ring.rs:61-67 *)
Definition ring_new (addr : Z) (n : ubig) : res ring :=
  match n with
  | Small w =>
      if w =? 0 then Panic ZeroModulus
      else r <- ring_small_new addr w ;; Ok (RingSmall r)
  | Large b => r <- ring_large_new addr (words b) ;; Ok (RingLarge r)
  end.

(** src/modular/modulo_ring.rs:130-134 *)
Definition large_is_valid (r : ring_large) (v : list Z) : res bool :=
  if (length v =? length (rl_modulus r))%nat then
    c <- cmp_same_len v (rl_modulus r) ;;
    match c with
    | Lt => v0 <- get 0 v ;; Ok (Z.land v0 (ones_w (rl_shift r)) =? 0)
    | _ => Ok false
    end
  else Ok false.

(** src/modular/modulo.rs:32-35: the normalized value.  src/modular/modulo.rs:91-94 *)
Definition raw_is_valid (raw : Z) (r : ring_small) : bool :=
  (raw <? rs_modulus r) && (Z.land raw (ones_w (rs_shift r)) =? 0).

(** src/modular/modulo.rs:37-41, 43-47 *)
Record modulo_small := mkModuloSmall { ms_ring : ring_small; ms_raw : Z }.
Record modulo_large := mkModuloLarge { ml_ring : ring_large; ml_value : list Z }.

(** src/modular/modulo.rs:22-28 *)
Inductive modulo : Type :=
| MSmall (m : modulo_small)
| MLarge (m : modulo_large).

(** src/modular/modulo.rs:97-100 *)
Definition small_new (raw : Z) (r : ring_small) : res modulo_small :=
  check raw_is_valid raw r ;; Ok (mkModuloSmall r raw).

(** src/modular/modulo.rs:114-117 *)
Definition set_raw (m : modulo_small) (raw : Z) : res modulo_small :=
  check raw_is_valid raw (ms_ring m) ;; Ok (mkModuloSmall (ms_ring m) raw).

(** src/modular/modulo.rs:121-125, with src/modular/cmp.rs:20-25 *)
Definition small_check_same_ring (a b : modulo_small) : res unit :=
  if rs_addr (ms_ring a) =? rs_addr (ms_ring b) then Ok tt else Panic DifferentRings.

(** src/modular/modulo.rs:133-139 *)
Definition large_new (v : list Z) (r : ring_large) : res modulo_large :=
  ok <- large_is_valid r v ;; check ok ;; Ok (mkModuloLarge r v).

(** src/modular/modulo.rs:152-158 *)
Definition modify (m : modulo_large) (f : list Z -> ring_large -> res (list Z)) : res modulo_large :=
  v <- f (ml_value m) (ml_ring m) ;;
  ok <- large_is_valid (ml_ring m) v ;;
  check ok ;; Ok (mkModuloLarge (ml_ring m) v).

(** src/modular/modulo.rs:161-165, with src/modular/cmp.rs:30-35 *)
Definition large_check_same_ring (a b : modulo_large) : res unit :=
  if rl_addr (ml_ring a) =? rl_addr (ml_ring b) then Ok tt else Panic DifferentRings.

(** src/modular/modulo.rs:168-178, 180-188, 202-208 *)
Definition mod_clone (m : modulo) : modulo :=
  match m with
  | MSmall a => MSmall a
  | MLarge a => MLarge (mkModuloLarge (ml_ring a) (ml_value a))
  end.

(** src/modular/modulo.rs:190-199, 210-220: the destination is dropped. *)
Definition mod_clone_from (m source : modulo) : modulo :=
  match m, source with
  | MLarge a, MLarge s =>
      if (length (ml_value a) =? length (ml_value s))%nat then MLarge (mkModuloLarge (ml_ring s) (ml_value s))
      else MLarge (mkModuloLarge (ml_ring s) (ml_value s))
  | _, _ => mod_clone source
  end.

(** src/modular/convert.rs:58-60 *)
Definition ring_small_modulus (r : ring_small) : Z := shr_w (rs_modulus r) (rs_shift r).

(** src/modular/convert.rs:64-71 and 128-135: the words shifted back. *)
Definition denormalize (v : list Z) (shift : Z) : res ubig :=
  b <- allocate (len v) ;;
  b <- extend b v ;;
  '(b, low_bits) <- on_words b (fun ws => shr_in_place ws shift) ;;
  check (low_bits =? 0) ;;
  from_buffer b.

Definition ring_large_modulus (r : ring_large) : res ubig := denormalize (rl_modulus r) (rl_shift r).

(** src/modular/convert.rs:32-37 *)
Definition ring_modulus (r : ring) : res ubig :=
  match r with
  | RingSmall r => Ok (from_word (ring_small_modulus r))
  | RingLarge r => ring_large_modulus r
  end.

(** src/modular/convert.rs:96-99, 122-124 *)
Definition raw_residue (raw : Z) (r : ring_small) : res Z :=
  check raw_is_valid raw r ;; Ok (shr_w raw (rs_shift r)).
Definition small_residue (m : modulo_small) : res Z := raw_residue (ms_raw m) (ms_ring m).

(** src/modular/convert.rs:128-135 *)
Definition large_residue (m : modulo_large) : res ubig := denormalize (ml_value m) (rl_shift (ml_ring m)).

(** src/modular/convert.rs:86-91 *)
Definition residue (m : modulo) : res ubig :=
  match m with
  | MSmall a => w <- small_residue a ;; Ok (from_word w)
  | MLarge a => large_residue a
  end.

(** src/modular/convert.rs:102-109 *)
Definition raw_from_word (word : Z) (r : ring_small) : res Z :=
  if rs_shift r =? 0 then '(_, rem) <- fdn_div_rem_word (rs_fast_div r) word ;; Ok rem
  else '(_, rem) <- fdn_div_rem (rs_fast_div r) (shl_dw (extend_word word) (rs_shift r)) ;; Ok rem.

(** src/modular/convert.rs:111-117 *)
Definition raw_from_large (ws : list Z) (r : ring_small) : res Z :=
  rem <- fast_rem_by_normalized_word ws (rs_fast_div r) ;;
  if negb (rs_shift r =? 0) then
    '(_, rem) <- fdn_div_rem (rs_fast_div r) (shl_dw (extend_word rem) (rs_shift r)) ;; Ok rem
  else Ok rem.

(** src/modular/convert.rs:190-196 *)
Definition small_from_ubig (x : ubig) (r : ring_small) : res modulo_small :=
  raw <- match x with
         | Small w => raw_from_word w r
         | Large b => raw_from_large (words b) r
         end ;;
  small_new raw r.

(** src/modular/convert.rs:200-227 *)
Definition large_from_ubig (x : ubig) (r : ring_large) : res modulo_large :=
  x <- ubig_shl_assign x (rl_shift r) ;;
  let modulus := rl_modulus r in
  vec <- match x with
         | Small w => Ok [w]
         | Large b =>
             if (length (words b) <? length modulus)%nat then Ok (words b)
             else
               l <- div_layout word_ty (length (words b)) (length modulus) ;;
               mem <- new_memory l ;;
               '(ws, _) <- div_rem_in_place (words b) modulus (rl_fast_div_top r) mem ;;
               slice_to (length modulus) ws
         end ;;
  check (length vec <=? length modulus)%nat ;;
  large_new (vec ++ repeat 0 (length modulus - length vec)) r.

(** src/modular/convert.rs:143-151 *)
Definition ubig_into_modulo (x : ubig) (r : ring) : res modulo :=
  match r with
  | RingSmall r => m <- small_from_ubig x r ;; Ok (MSmall m)
  | RingLarge r => m <- large_from_ubig x r ;; Ok (MLarge m)
  end.

(** src/modular/convert.rs:153-163 *)
Definition ubig_ref_into_modulo (x : ubig) (r : ring) : res modulo :=
  match r with
  | RingSmall r => m <- small_from_ubig x r ;; Ok (MSmall m)
  | RingLarge r => x <- ubig_clone x ;; m <- large_from_ubig x r ;; Ok (MLarge m)
  end.

(** ** Addition and subtraction: src/modular/add.rs *)

(** src/modular/add.rs:167-174 *)
Definition raw_negate (raw : Z) (r : ring_small) : res Z :=
  check raw_is_valid raw r ;;
  if raw =? 0 then Ok 0 else word_chk (rs_modulus r - raw).

(** src/modular/add.rs:178-188 *)
Definition raw_add (a b : Z) (r : ring_small) : res Z :=
  check raw_is_valid a r && raw_is_valid b r ;;
  let '(v, overflow) := overflowing_add a b in
  let m := rs_modulus r in
  if overflow || (m <=? v) then
    let '(v, overflow2) := overflowing_sub v m in
    check Bool.eqb overflow overflow2 ;; Ok v
  else Ok v.

(** src/modular/add.rs:192-202 *)
Definition raw_sub (a b : Z) (r : ring_small) : res Z :=
  check raw_is_valid a r && raw_is_valid b r ;;
  let '(v, overflow) := overflowing_sub a b in
  if overflow then
    let '(v, overflow2) := overflowing_add v (rs_modulus r) in
    check overflow2 ;; Ok v
  else Ok v.

(** src/modular/add.rs:208-211 *)
Definition small_negate_in_place (m : modulo_small) : res modulo_small :=
  raw <- raw_negate (ms_raw m) (ms_ring m) ;; set_raw m raw.

(** src/modular/add.rs:215-218 *)
Definition small_add_in_place (m rhs : modulo_small) : res modulo_small :=
  _ <- small_check_same_ring m rhs ;;
  raw <- raw_add (ms_raw m) (ms_raw rhs) (ms_ring m) ;; set_raw m raw.

(** src/modular/add.rs:222-225 *)
Definition small_sub_in_place (m rhs : modulo_small) : res modulo_small :=
  _ <- small_check_same_ring m rhs ;;
  raw <- raw_sub (ms_raw m) (ms_raw rhs) (ms_ring m) ;; set_raw m raw.

(** src/modular/add.rs:229-232: returns the new [rhs]. *)
Definition small_sub_in_place_swap (m rhs : modulo_small) : res modulo_small :=
  _ <- small_check_same_ring m rhs ;;
  raw <- raw_sub (ms_raw m) (ms_raw rhs) (ms_ring m) ;; set_raw rhs raw.

(** src/modular/add.rs:237-244 *)
Definition large_negate_in_place (m : modulo_large) : res modulo_large :=
  modify m (fun ws r =>
    if negb (forallb (fun w => w =? 0) ws) then
      '(ws, overflow) <- sub_same_len_in_place_swap (rl_modulus r) ws ;;
      check negb overflow ;; Ok ws
    else Ok ws).

(** src/modular/add.rs:247-258 *)
Definition large_add_in_place (m rhs : modulo_large) : res modulo_large :=
  _ <- large_check_same_ring m rhs ;;
  modify m (fun ws r =>
    '(ws, overflow) <- add_same_len_in_place ws (ml_value rhs) ;;
    c <- (if overflow then Ok true
          else c <- cmp_same_len ws (rl_modulus r) ;; Ok (match c with Lt => false | _ => true end)) ;;
    if c : bool then
      '(ws, overflow2) <- sub_same_len_in_place ws (rl_modulus r) ;;
      check Bool.eqb overflow overflow2 ;; Ok ws
    else Ok ws).

(** src/modular/add.rs:261-272 *)
Definition large_sub_in_place (m rhs : modulo_large) : res modulo_large :=
  _ <- large_check_same_ring m rhs ;;
  modify m (fun ws r =>
    '(ws, overflow) <- sub_same_len_in_place ws (ml_value rhs) ;;
    if overflow : bool then
      '(ws, overflow2) <- add_same_len_in_place ws (rl_modulus r) ;;
      check overflow2 ;; Ok ws
    else Ok ws).

(** src/modular/add.rs:275-286 *)
Definition large_sub_in_place_swap (m rhs : modulo_large) : res modulo_large :=
  _ <- large_check_same_ring m rhs ;;
  modify rhs (fun rhs_words r =>
    '(ws, overflow) <- sub_same_len_in_place_swap (ml_value m) rhs_words ;;
    if overflow : bool then
      '(ws, overflow2) <- add_same_len_in_place ws (rl_modulus r) ;;
      check overflow2 ;; Ok ws
    else Ok ws).

(** src/modular/add.rs:15-26, 28-35 *)
Definition mod_neg_v (a : modulo) : res modulo :=
  match a with
  | MSmall a => m <- small_negate_in_place a ;; Ok (MSmall m)
  | MLarge a => m <- large_negate_in_place a ;; Ok (MLarge m)
  end.
Definition mod_neg_r (a : modulo) : res modulo := mod_neg_v (mod_clone a).

(** src/modular/add.rs:81-94, 74-79 *)
Definition mod_add_assign_r (a b : modulo) : res modulo :=
  match a, b with
  | MSmall a, MSmall b => m <- small_add_in_place a b ;; Ok (MSmall m)
  | MLarge a, MLarge b => m <- large_add_in_place a b ;; Ok (MLarge m)
  | _, _ => Panic DifferentRings
  end.
Definition mod_add_assign_v (a b : modulo) : res modulo := mod_add_assign_r a b.

(** src/modular/add.rs:46-54, 37-44, 56-63, 65-72 *)
Definition mod_add_vr (a b : modulo) : res modulo := mod_add_assign_r a b.
Definition mod_add_vv (a b : modulo) : res modulo := mod_add_vr a b.
Definition mod_add_rv (a b : modulo) : res modulo := mod_add_vr b a.
Definition mod_add_rr (a b : modulo) : res modulo := mod_add_vr (mod_clone a) b.

(** src/modular/add.rs:149-162, 142-147 *)
Definition mod_sub_assign_r (a b : modulo) : res modulo :=
  match a, b with
  | MSmall a, MSmall b => m <- small_sub_in_place a b ;; Ok (MSmall m)
  | MLarge a, MLarge b => m <- large_sub_in_place a b ;; Ok (MLarge m)
  | _, _ => Panic DifferentRings
  end.
Definition mod_sub_assign_v (a b : modulo) : res modulo := mod_sub_assign_r a b.

(** src/modular/add.rs:105-113, 96-103 *)
Definition mod_sub_vr (a b : modulo) : res modulo := mod_sub_assign_r a b.
Definition mod_sub_vv (a b : modulo) : res modulo := mod_sub_vr a b.
(** src/modular/add.rs:115-131 *)
Definition mod_sub_rv (a b : modulo) : res modulo :=
  match a, b with
  | MSmall a, MSmall b => m <- small_sub_in_place_swap a b ;; Ok (MSmall m)
  | MLarge a, MLarge b => m <- large_sub_in_place_swap a b ;; Ok (MLarge m)
  | _, _ => Panic DifferentRings
  end.
(** src/modular/add.rs:133-140 *)
Definition mod_sub_rr (a b : modulo) : res modulo := mod_sub_vr (mod_clone a) b.

(** ** [IntoModulo] for signed numbers and primitives: src/modular/convert.rs *)

(** src/modular/convert.rs:165-175 *)
Definition ibig_into_modulo (x : ibig) (r : ring) : res modulo :=
  m <- ubig_into_modulo (imag x) r ;;
  match isign x with Positive => Ok m | Negative => mod_neg_v m end.

(** src/modular/convert.rs:177-186 *)
Definition ibig_ref_into_modulo (x : ibig) (r : ring) : res modulo :=
  m <- ubig_ref_into_modulo (imag x) r ;;
  match isign x with Positive => Ok m | Negative => mod_neg_v m end.

(** src/modular/convert.rs:230-266 *)
Definition unsigned_into_modulo (tb x : Z) (r : ring) : res modulo :=
  u <- ubig_from_unsigned tb x ;; ubig_into_modulo u r.
Definition signed_into_modulo (tb x : Z) (r : ring) : res modulo :=
  x <- ibig_from_signed tb x ;; ibig_into_modulo x r.
Definition bool_into_modulo (x : bool) (r : ring) : res modulo :=
  u <- ubig_from_bool x ;; ubig_into_modulo u r.

(** ** Multiplication: src/modular/mul.rs *)

(** src/modular/mul.rs:83-90 *)
Definition raw_mul (a b : Z) (r : ring_small) : res Z :=
  check raw_is_valid a r && raw_is_valid b r ;;
  product <- dword_chk (extend_word (shr_w a (rs_shift r)) * extend_word b) ;;
  '(_, rem) <- fdn_div_rem (rs_fast_div r) product ;;
  Ok rem.

(** src/modular/mul.rs:96-99 *)
Definition small_mul_in_place (m rhs : modulo_small) : res modulo_small :=
  _ <- small_check_same_ring m rhs ;;
  raw <- raw_mul (ms_raw m) (ms_raw rhs) (ms_ring m) ;; set_raw m raw.

(** src/modular/mul.rs:115-132 *)
Definition mul_normalized (r : ring_large) (a b : list Z) (mem : Z) : res (list Z) :=
  let modulus := rl_modulus r in
  let n := length modulus in
  check (length a =? n)%nat && (length b =? n)%nat ;;
  '(product, mem) <- alloc_fill (2 * n) 0 mem ;;
  '(product, overflow) <- add_signed_mul_same_len product Positive a b mem ;;
  check (overflow =? 0) ;;
  '(product, _) <- shr_in_place product (rl_shift r) ;;
  '(product, _) <- div_rem_in_place product modulus (rl_fast_div_top r) mem ;;
  slice_to n product.

(** [words.copy_from_slice(src)]. E.g. src/modular/mul.rs:144 *)
Definition copy_slice (ws src : list Z) : res (list Z) :=
  check (length ws =? length src)%nat ;; Ok src.

(** src/modular/mul.rs:149-157 *)
Definition mul_normalized_in_place (m : modulo_large) (v : list Z) (mem : Z) : res modulo_large :=
  modify m (fun ws r => p <- mul_normalized r ws v mem ;; copy_slice ws p).

(** src/modular/mul.rs:137-139 *)
Definition large_mul_in_place (m rhs : modulo_large) (mem : Z) : res modulo_large :=
  mul_normalized_in_place m (ml_value rhs) mem.

(** src/modular/mul.rs:142-146 *)
Definition large_square_in_place (m : modulo_large) (mem : Z) : res modulo_large :=
  modify m (fun ws r => p <- mul_normalized r ws ws mem ;; copy_slice ws p).

(** src/modular/mul.rs:61-79, 54-59 *)
Definition mod_mul_assign_r (a b : modulo) : res modulo :=
  match a, b with
  | MSmall a, MSmall b =>
      _ <- small_check_same_ring a b ;;
      m <- small_mul_in_place a b ;; Ok (MSmall m)
  | MLarge a, MLarge b =>
      _ <- large_check_same_ring a b ;;
      l <- ring_mul_layout word_ty (length (rl_modulus (ml_ring a))) ;;
      mem <- new_memory l ;;
      m <- large_mul_in_place a b mem ;; Ok (MLarge m)
  | _, _ => Panic DifferentRings
  end.
Definition mod_mul_assign_v (a b : modulo) : res modulo := mod_mul_assign_r a b.

(** src/modular/mul.rs:26-34, 17-24, 36-43, 45-52 *)
Definition mod_mul_vr (a b : modulo) : res modulo := mod_mul_assign_r a b.
Definition mod_mul_vv (a b : modulo) : res modulo := mod_mul_vr a b.
Definition mod_mul_rv (a b : modulo) : res modulo := mod_mul_vr b a.
Definition mod_mul_rr (a b : modulo) : res modulo := mod_mul_vr (mod_clone a) b.

(** ** Inverse and division: src/modular/div.rs *)

(** src/modular/div.rs:88-103 *)
Definition small_inverse (m : modulo_small) : res (option modulo_small) :=
  a <- small_residue m ;;
  let b := ring_small_modulus (ms_ring m) in
  ua <- ubig_from_unsigned wbits a ;;
  ub <- ubig_from_unsigned wbits b ;;
  '(gcd, x, _) <- ubig_extended_gcd ua ub ;;
  if ubig_eqb gcd (from_word 1) then
    ib <- ibig_from_unsigned wbits b ;;
    rem <- ibig_rem_euclid_vv x ib ;;
    o <- ibig_try_to_unsigned wbits rem ;;
    w <- unwrap o ;;
    raw <- raw_from_word w (ms_ring m) ;;
    m <- small_new raw (ms_ring m) ;;
    Ok (Some m)
  else Ok None.

(** src/modular/div.rs:108-119 *)
Definition large_inverse (m : modulo_large) : res (option modulo_large) :=
  a <- large_residue m ;;
  b <- ring_large_modulus (ml_ring m) ;;
  '(gcd, x, _) <- ubig_extended_gcd a b ;;
  if ubig_eqb gcd (from_word 1) then
    rem <- ibig_rem_euclid_vv x (ibig_from_ubig b) ;;
    u <- unwrap (ubig_try_from_ibig rem) ;;
    m <- large_from_ubig u (ml_ring m) ;;
    Ok (Some m)
  else Ok None.

(** src/modular/div.rs:23-28 *)
Definition inverse (m : modulo) : res (option modulo) :=
  match m with
  | MSmall a => o <- small_inverse a ;; Ok (option_map MSmall o)
  | MLarge a => o <- large_inverse a ;; Ok (option_map MLarge o)
  end.

(** src/modular/div.rs:58-70, 31-56, 72-84 *)
Definition mod_div_rr (a b : modulo) : res modulo :=
  o <- inverse b ;;
  match o with
  | None => Panic NonInvertible
  | Some inv => mod_mul_rv a inv
  end.
Definition mod_div_vv (a b : modulo) : res modulo := mod_div_rr a b.
Definition mod_div_vr (a b : modulo) : res modulo := mod_div_rr a b.
Definition mod_div_rv (a b : modulo) : res modulo := mod_div_rr a b.
Definition mod_div_assign_r (a b : modulo) : res modulo := mod_div_rr a b.
Definition mod_div_assign_v (a b : modulo) : res modulo := mod_div_assign_r a b.

(** ** Exponentiation: src/modular/pow.rs *)

(** src/modular/pow.rs:77-93 *)
Fixpoint pow_helper (bits : nat) (self base exp : Z) (r : ring_small) : res Z :=
  match bits with
  | O => Ok self
  | S bits =>
      v <- raw_mul self self r ;;
      v <- (if negb (Z.land exp (shl_w 1 (Z.of_nat bits)) =? 0) then raw_mul v base r else Ok v) ;;
      pow_helper bits v base exp r
  end.

(** src/modular/pow.rs:66-73 *)
Definition pow_word (self exp : Z) (r : ring_small) : res Z :=
  if exp =? 0 then raw_from_word 1 r
  else
    bits <- checked 32 (wbits - 1 - leading_zeros_w exp) ;;
    pow_helper (Z.to_nat bits) self self exp r.

(** src/modular/pow.rs:120-123: the words below, most significant first. *)
Fixpoint small_pow_loop (v base : Z) (exp_words : list Z) (r : ring_small) : res Z :=
  match exp_words with
  | [] => Ok v
  | w :: exp_words => v <- pow_helper (Z.to_nat wbits) v base w r ;; small_pow_loop v base exp_words r
  end.

(** src/modular/pow.rs:114-125 *)
Definition small_pow_nontrivial (m : modulo_small) (exp : ubig) : res modulo_small :=
  le <- ubig_le (from_word 3) exp ;;
  check le ;;
  match rev (as_words exp) with
  | [] => Panic Internal
  | top :: below =>
      v <- pow_word (ms_raw m) top (ms_ring m) ;;
      v <- small_pow_loop v (ms_raw m) below (ms_ring m) ;;
      small_new v (ms_ring m)
  end.

(** src/modular/pow.rs:99-112 *)
Definition small_pow (m : modulo_small) (exp : ubig) : res modulo_small :=
  match exp with
  | Small w =>
      if w =? 0 then small_from_ubig (from_word 1) (ms_ring m)
      else if w =? 1 then Ok m
      else if w =? 2 then v <- raw_mul (ms_raw m) (ms_raw m) (ms_ring m) ;; small_new v (ms_ring m)
      else small_pow_nontrivial m exp
  | Large _ => small_pow_nontrivial m exp
  end.

(** src/modular/pow.rs:233: [cost].  [1usize << (window_size - 1)] panics if the
    shift is not less than the width of [usize]. *)
Definition window_cost (n window_size : Z) : res Z :=
  s <- checked 32 (window_size - 1) ;;
  check (s <? ubits) ;;
  p <- usize_chk (Z.shiftl 1 s mod 2 ^ ubits - 1) ;;
  d <- usize_chk (window_size + 1) ;;
  usize_chk (p + n / d).

(** src/modular/pow.rs:236-243 *)
Fixpoint window_loop (fuel : nat) (n window_size c : Z) : res Z :=
  if window_size + 1 <? Z.min wbits ubits then
    match fuel with
    | O => Panic Internal
    | S fuel =>
        c2 <- window_cost n (window_size + 1) ;;
        if c <=? c2 then Ok window_size
        else window_loop fuel n (window_size + 1) c2
    end
  else Ok window_size.

(** src/modular/pow.rs:230-245 *)
Definition choose_pow_window_len (n : Z) : res Z :=
  c <- window_cost n 1 ;; window_loop (Z.to_nat wbits) n 1 c.

(** src/modular/pow.rs:163-176: the loop over [i], with [count] steps left. *)
Fixpoint pow_table (count : nat) (i : nat) (r : ring_large) (self square table : list Z) (mem : Z) : res (list Z) :=
  match count with
  | O => Ok table
  | S count =>
      let n := length (rl_modulus r) in
      '(table, _) <-
        (if (i =? 1)%nat then
           on_window 0 n table (fun cur =>
             p <- mul_normalized r self square mem ;; cur <- copy_slice cur p ;; Ok (cur, tt))
         else
           on_window ((i - 2) * n) (i * n) table (fun w =>
             '(prev, cur) <- split_at n w ;;
             p <- mul_normalized r prev square mem ;; cur <- copy_slice cur p ;; Ok (prev ++ cur, tt))) ;;
      pow_table count (S i) r self square table mem
  end.

(** [for _ in 0..k { val.square_in_place(memory) }]. E.g. src/modular/pow.rs:204 *)
Fixpoint square_times (k : nat) (m : modulo_large) (mem : Z) : res modulo_large :=
  match k with
  | O => Ok m
  | S k => m <- large_square_in_place m mem ;; square_times k m mem
  end.

(** src/modular/pow.rs:195-201: the window at [bit_idx]: its value, made odd, and
    its length. *)
Definition pow_window (next_word cur_word bit_idx window_len : Z) : res (Z * Z) :=
  s <- checked 32 (bit_idx + 1 + wbits - window_len) ;;
  check (s <? 2 * wbits) ;;
  let '(window, _) := split_double_word (Z.shiftr (double_word next_word cur_word) s) in
  let window := Z.land window (ones_w window_len) in
  num_bits <- checked 32 (window_len - trailing_zeros_w window) ;;
  s <- checked 32 (window_len - num_bits) ;;
  check (s <? wbits) ;;
  Ok (shr_w window s, num_bits).

(** src/modular/pow.rs:183-224 *)
Fixpoint large_pow_loop (fuel : nat) (self : list Z) (table exp_words : list Z) (n window_len : Z)
  (mem : Z) (v : modulo_large) (bit : Z) : res modulo_large :=
  match fuel with
  | O => Panic Internal
  | S fuel =>
      let word_idx := bit / wbits in
      let bit_idx := bit mod wbits in
      cur_word <- get (Z.to_nat word_idx) exp_words ;;
      '(v, bit) <-
        (if negb (Z.land cur_word (shl_w 1 bit_idx) =? 0) then
           next_word <- (if word_idx =? 0 then Ok 0 else get (Z.to_nat (word_idx - 1)) exp_words) ;;
           '(window, num_bits) <- pow_window next_word cur_word bit_idx window_len ;;
           k <- checked 32 (num_bits - 1) ;;
           v <- square_times (Z.to_nat k) v mem ;;
           bit <- usize_chk (bit - k) ;;
           check (Z.land window 1 =? 1) ;;
           let entry_idx := shr_w window 1 mod 2 ^ ubits in
           entry <- (if entry_idx =? 0 then Ok self
                     else
                       '(_, t) <- split_at (Z.to_nat ((entry_idx - 1) * n)) table ;;
                       slice_to (Z.to_nat n) t) ;;
           v <- mul_normalized_in_place v entry mem ;;
           Ok (v, bit)
         else Ok (v, bit)) ;;
      if bit =? 0 then Ok v
      else
        v <- large_square_in_place v mem ;;
        large_pow_loop fuel self table exp_words n window_len mem v (bit - 1)
  end.

(** src/modular/pow.rs:139-226 *)
Definition large_pow_nontrivial (m : modulo_large) (exp : ubig) : res modulo_large :=
  le <- ubig_le (from_word 2) exp ;;
  check le ;;
  let n := len (rl_modulus (ml_ring m)) in
  bits <- ubig_bit_len exp ;;
  window_len <- choose_pow_window_len bits ;;
  let table_words := (2 ^ (window_len - 1) - 1) * n in
  l <- ring_pow_layout word_ty (length (rl_modulus (ml_ring m))) window_len ;;
  mem <- new_memory l ;;
  '(table, mem) <- alloc_fill (Z.to_nat table_words) 0 mem ;;
  v <- large_mul_in_place m m mem ;;
  table <- pow_table (Z.to_nat (2 ^ (window_len - 1) - 1)) 1 (ml_ring m) (ml_value m) (ml_value v) table mem ;;
  bit <- usize_chk (bits - 2) ;;
  large_pow_loop (S (Z.to_nat bit)) (ml_value m) table (as_words exp) n window_len mem v bit.

(** src/modular/pow.rs:129-137 *)
Definition large_pow (m : modulo_large) (exp : ubig) : res modulo_large :=
  match exp with
  | Small w =>
      if w =? 0 then large_from_ubig (from_word 1) (ml_ring m)
      else if w =? 1 then Ok (mkModuloLarge (ml_ring m) (ml_value m))
      else large_pow_nontrivial m exp
  | Large _ => large_pow_nontrivial m exp
  end.

(** src/modular/pow.rs:30-35 *)
Definition mod_pow (m : modulo) (exp : ubig) : res modulo :=
  match m with
  | MSmall a => m <- small_pow a exp ;; Ok (MSmall m)
  | MLarge a => m <- large_pow a exp ;; Ok (MLarge m)
  end.

(** src/modular/pow.rs:52-60 *)
Definition mod_pow_signed (m : modulo) (exp : ibig) : res modulo :=
  match isign exp with
  | Positive => mod_pow m (imag exp)
  | Negative =>
      o <- inverse m ;;
      match o with
      | None => Panic NonInvertible
      | Some inv => mod_pow inv (imag exp)
      end
  end.

(** ** Comparison: src/modular/cmp.rs *)

(** src/modular/cmp.rs:10-15 *)
Definition ring_addr (r : ring) : Z := match r with RingSmall r => rs_addr r | RingLarge r => rl_addr r end.
Definition ring_eqb (r s : ring) : bool := ring_addr r =? ring_addr s.

(** src/modular/cmp.rs:44-57, 61-67, 71-76 *)
Definition modulo_eq (a b : modulo) : res bool :=
  match a, b with
  | MSmall a, MSmall b => _ <- small_check_same_ring a b ;; Ok (ms_raw a =? ms_raw b)
  | MLarge a, MLarge b => _ <- large_check_same_ring a b ;; Ok (words_eqb (ml_value a) (ml_value b))
  | _, _ => Panic DifferentRings
  end.

End Modular.
