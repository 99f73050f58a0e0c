(** Counting what modular arithmetic does: src/modular/ again, with the counter of
    Model/Cost.v.  Definitions only.  Operations on one word cost one step. *)
From Verif Require Import Model.Base Model.Words Model.Add Model.Shift Model.DivWord Model.Memory Model.Mul Model.Div
  Model.Buffer Model.UBig Model.IBig Model.Convert Model.AddOps Model.MulOps Model.ShiftOps Model.Bits Model.DivOps
  Model.PrimOps Model.Gcd Model.RawMemory Model.Modular Model.Cost Model.CostDiv Model.CostOps Model.CostFmt Model.CostGcd.

Section CostModular.
Context {A : Arch}.

(** [modify] of Model/Modular.v: src/modular/modulo.rs:152-158; checking the value
    passes over its words. *)
Definition c_modify (m : modulo_large) (f : list Z -> ring_large -> counted (list Z)) : counted modulo_large :=
  v <+ f (ml_value m) (ml_ring m) ;;
  ok <+ call (length v) (large_is_valid (ml_ring m) v) ;;
  ensure ok ;; free (Ok (mkModuloLarge (ml_ring m) v)).

(** src/modular/modulo.rs:133-139 *)
Definition c_large_new (v : list Z) (r : ring_large) : counted modulo_large := call (length v) (large_new v r).

(** src/modular/add.rs:237-244; looking for a word that is not zero passes over the words. *)
Definition c_large_negate_in_place (m : modulo_large) : counted modulo_large :=
  c_modify m (fun ws r =>
    zero <+ call (length ws) (Ok (forallb (fun w => w =? 0) ws)) ;;
    if negb zero then
      '(ws, overflow) <+ call (length ws) (sub_same_len_in_place_swap (rl_modulus r) ws) ;;
      ensure negb overflow ;; free (Ok ws)
    else free (Ok ws)).

(** src/modular/add.rs:247-258 *)
Definition c_large_add_in_place (m rhs : modulo_large) : counted modulo_large :=
  _ <+ free (large_check_same_ring m rhs) ;;
  c_modify m (fun ws r =>
    '(ws, overflow) <+ call (length ws) (add_same_len_in_place ws (ml_value rhs)) ;;
    c <+ (if overflow then free (Ok true)
          else c <+ call (length ws) (cmp_same_len ws (rl_modulus r)) ;; free (Ok (match c with Lt => false | _ => true end))) ;;
    if c : bool then
      '(ws, overflow2) <+ call (length ws) (sub_same_len_in_place ws (rl_modulus r)) ;;
      ensure Bool.eqb overflow overflow2 ;; free (Ok ws)
    else free (Ok ws)).

(** src/modular/add.rs:261-272 *)
Definition c_large_sub_in_place (m rhs : modulo_large) : counted modulo_large :=
  _ <+ free (large_check_same_ring m rhs) ;;
  c_modify m (fun ws r =>
    '(ws, overflow) <+ call (length ws) (sub_same_len_in_place ws (ml_value rhs)) ;;
    if overflow : bool then
      '(ws, overflow2) <+ call (length ws) (add_same_len_in_place ws (rl_modulus r)) ;;
      ensure overflow2 ;; free (Ok ws)
    else free (Ok ws)).

(** src/modular/add.rs:275-286 *)
Definition c_large_sub_in_place_swap (m rhs : modulo_large) : counted modulo_large :=
  _ <+ free (large_check_same_ring m rhs) ;;
  c_modify rhs (fun rhs_words r =>
    '(ws, overflow) <+ call (length rhs_words) (sub_same_len_in_place_swap (ml_value m) rhs_words) ;;
    if overflow : bool then
      '(ws, overflow2) <+ call (length ws) (add_same_len_in_place ws (rl_modulus r)) ;;
      ensure overflow2 ;; free (Ok ws)
    else free (Ok ws)).

(** src/modular/add.rs:15-26 *)
Definition c_mod_neg_v (a : modulo) : counted modulo :=
  match a with
  | MSmall a => m <+ call 0 (small_negate_in_place a) ;; free (Ok (MSmall m))
  | MLarge a => m <+ c_large_negate_in_place a ;; free (Ok (MLarge m))
  end.

(** src/modular/add.rs:81-94 *)
Definition c_mod_add_assign_r (a b : modulo) : counted modulo :=
  match a, b with
  | MSmall a, MSmall b => m <+ call 0 (small_add_in_place a b) ;; free (Ok (MSmall m))
  | MLarge a, MLarge b => m <+ c_large_add_in_place a b ;; free (Ok (MLarge m))
  | _, _ => free (Panic DifferentRings)
  end.

(** src/modular/add.rs:149-162 *)
Definition c_mod_sub_assign_r (a b : modulo) : counted modulo :=
  match a, b with
  | MSmall a, MSmall b => m <+ call 0 (small_sub_in_place a b) ;; free (Ok (MSmall m))
  | MLarge a, MLarge b => m <+ c_large_sub_in_place a b ;; free (Ok (MLarge m))
  | _, _ => free (Panic DifferentRings)
  end.

(** src/modular/add.rs:115-131 *)
Definition c_mod_sub_rv (a b : modulo) : counted modulo :=
  match a, b with
  | MSmall a, MSmall b => m <+ call 0 (small_sub_in_place_swap a b) ;; free (Ok (MSmall m))
  | MLarge a, MLarge b => m <+ c_large_sub_in_place_swap a b ;; free (Ok (MLarge m))
  | _, _ => free (Panic DifferentRings)
  end.

(** src/modular/mul.rs:115-132 *)
Definition c_mul_normalized (r : ring_large) (a b : list Z) (mem : Z) : counted (list Z) :=
  let modulus := rl_modulus r in
  let n := length modulus in
  ensure ((length a =? n)%nat && (length b =? n)%nat) ;;
  '(product, mem) <+ call (2 * n) (alloc_fill (2 * n) 0 mem) ;;
  '(product, overflow) <+ c_add_signed_mul_same_len product Positive a b mem ;;
  ensure (overflow =? 0) ;;
  '(product, _) <+ call (length product) (shr_in_place product (rl_shift r)) ;;
  '(product, _) <+ c_div_rem_in_place product modulus (rl_fast_div_top r) mem ;;
  call 0 (slice_to n product).

(** [words.copy_from_slice(src)]. E.g. src/modular/mul.rs:144 *)
Definition c_copy_slice (ws src : list Z) : counted (list Z) := call (length src) (copy_slice ws src).

(** src/modular/mul.rs:149-157 *)
Definition c_mul_normalized_in_place (m : modulo_large) (v : list Z) (mem : Z) : counted modulo_large :=
  c_modify m (fun ws r => p <+ c_mul_normalized r ws v mem ;; c_copy_slice ws p).

(** src/modular/mul.rs:137-139 *)
Definition c_large_mul_in_place (m rhs : modulo_large) (mem : Z) : counted modulo_large :=
  c_mul_normalized_in_place m (ml_value rhs) mem.

(** src/modular/mul.rs:142-146 *)
Definition c_large_square_in_place (m : modulo_large) (mem : Z) : counted modulo_large :=
  c_modify m (fun ws r => p <+ c_mul_normalized r ws ws mem ;; c_copy_slice ws p).

(** src/modular/mul.rs:61-79 *)
Definition c_mod_mul_assign_r (a b : modulo) : counted modulo :=
  match a, b with
  | MSmall a, MSmall b =>
      _ <+ free (small_check_same_ring a b) ;;
      m <+ call 0 (small_mul_in_place a b) ;; free (Ok (MSmall m))
  | MLarge a, MLarge b =>
      _ <+ free (large_check_same_ring a b) ;;
      l <+ free (ring_mul_layout word_ty (length (rl_modulus (ml_ring a)))) ;;
      mem <+ call 0 (new_memory l) ;;
      m <+ c_large_mul_in_place a b mem ;; free (Ok (MLarge m))
  | _, _ => free (Panic DifferentRings)
  end.

(** src/modular/convert.rs:200-227 *)
Definition c_large_from_ubig (x : ubig) (r : ring_large) : counted modulo_large :=
  x <+ c_ubig_shl_v x (rl_shift r) ;;
  let modulus := rl_modulus r in
  vec <+ match x with
         | Small w => free (Ok [w])
         | Large b =>
             if (length (words b) <? length modulus)%nat then free (Ok (words b))
             else
               l <+ free (div_layout word_ty (length (words b)) (length modulus)) ;;
               mem <+ call 0 (new_memory l) ;;
               '(ws, _) <+ c_div_rem_in_place (words b) modulus (rl_fast_div_top r) mem ;;
               call 0 (slice_to (length modulus) ws)
         end ;;
  ensure (length vec <=? length modulus)%nat ;;
  v <+ call (length modulus) (Ok (vec ++ repeat 0 (length modulus - length vec))) ;;
  c_large_new v r.

(** src/modular/convert.rs:190-196 *)
Definition c_small_from_ubig (x : ubig) (r : ring_small) : counted modulo_small :=
  raw <+ match x with
         | Small w => call 0 (raw_from_word w r)
         | Large b => call (length (words b)) (raw_from_large (words b) r)
         end ;;
  free (small_new raw r).

(** src/modular/convert.rs:143-151 *)
Definition c_ubig_into_modulo (x : ubig) (r : ring) : counted modulo :=
  match r with
  | RingSmall r => m <+ c_small_from_ubig x r ;; free (Ok (MSmall m))
  | RingLarge r => m <+ c_large_from_ubig x r ;; free (Ok (MLarge m))
  end.

(** ** src/modular/pow.rs *)

(** src/modular/pow.rs:77-93 *)
Fixpoint c_pow_helper (bits : nat) (self base exp : Z) (r : ring_small) : counted Z :=
  match bits with
  | O => free (Ok self)
  | S bits =>
      v <+ call 0 (raw_mul self self r) ;;
      v <+ (if negb (Z.land exp (shl_w 1 (Z.of_nat bits)) =? 0) then call 0 (raw_mul v base r) else free (Ok v)) ;;
      c_pow_helper bits v base exp r
  end.

(** src/modular/pow.rs:66-73 *)
Definition c_pow_word (self exp : Z) (r : ring_small) : counted Z :=
  if exp =? 0 then call 0 (raw_from_word 1 r)
  else
    bits <+ free (checked 32 (wbits - 1 - leading_zeros_w exp)) ;;
    c_pow_helper (Z.to_nat bits) self self exp r.

(** src/modular/pow.rs:120-123 *)
Fixpoint c_small_pow_loop (v base : Z) (exp_words : list Z) (r : ring_small) : counted Z :=
  match exp_words with
  | [] => free (Ok v)
  | w :: exp_words => v <+ c_pow_helper (Z.to_nat wbits) v base w r ;; c_small_pow_loop v base exp_words r
  end.

(** src/modular/pow.rs:114-125 *)
Definition c_small_pow_nontrivial (m : modulo_small) (exp : ubig) : counted modulo_small :=
  le <+ c_ubig_le (from_word 3) exp ;;
  ensure le ;;
  match rev (as_words exp) with
  | [] => free (Panic Internal)
  | top :: below =>
      v <+ c_pow_word (ms_raw m) top (ms_ring m) ;;
      v <+ c_small_pow_loop v (ms_raw m) below (ms_ring m) ;;
      free (small_new v (ms_ring m))
  end.

(** src/modular/pow.rs:99-112 *)
Definition c_small_pow (m : modulo_small) (exp : ubig) : counted modulo_small :=
  match exp with
  | Small w =>
      if w =? 0 then call 0 (small_from_ubig (from_word 1) (ms_ring m))
      else if w =? 1 then free (Ok m)
      else if w =? 2 then v <+ call 0 (raw_mul (ms_raw m) (ms_raw m) (ms_ring m)) ;; free (small_new v (ms_ring m))
      else c_small_pow_nontrivial m exp
  | Large _ => c_small_pow_nontrivial m exp
  end.

(** src/modular/pow.rs:163-176 *)
Fixpoint c_pow_table (count : nat) (i : nat) (r : ring_large) (self square table : list Z) (mem : Z) : counted (list Z) :=
  match count with
  | O => free (Ok table)
  | S count =>
      let n := length (rl_modulus r) in
      '(table, _) <+
        (if (i =? 1)%nat then
           c_window 0 n table (fun cur =>
             p <+ c_mul_normalized r self square mem ;; cur <+ c_copy_slice cur p ;; free (Ok (cur, tt)))
         else
           c_window ((i - 2) * n) (i * n) table (fun w =>
             '(prev, cur) <+ free (split_at n w) ;;
             p <+ c_mul_normalized r prev square mem ;; cur <+ c_copy_slice cur p ;; free (Ok (prev ++ cur, tt)))) ;;
      c_pow_table count (S i) r self square table mem
  end.

(** E.g. src/modular/pow.rs:204 *)
Fixpoint c_square_times (k : nat) (m : modulo_large) (mem : Z) : counted modulo_large :=
  match k with
  | O => free (Ok m)
  | S k => m <+ c_large_square_in_place m mem ;; c_square_times k m mem
  end.

(** src/modular/pow.rs:183-224 *)
Fixpoint c_large_pow_loop (fuel : nat) (self : list Z) (table exp_words : list Z) (n window_len : Z)
  (mem : Z) (v : modulo_large) (bit : Z) : counted modulo_large :=
  match fuel with
  | O => free (Panic Internal)
  | S fuel =>
      let word_idx := bit / wbits in
      let bit_idx := bit mod wbits in
      cur_word <+ call 0 (get (Z.to_nat word_idx) exp_words) ;;
      '(v, bit) <+
        (if negb (Z.land cur_word (shl_w 1 bit_idx) =? 0) then
           next_word <+ (if word_idx =? 0 then free (Ok 0) else free (get (Z.to_nat (word_idx - 1)) exp_words)) ;;
           '(window, num_bits) <+ call 0 (pow_window next_word cur_word bit_idx window_len) ;;
           k <+ free (checked 32 (num_bits - 1)) ;;
           v <+ c_square_times (Z.to_nat k) v mem ;;
           bit <+ free (usize_chk (bit - k)) ;;
           ensure (Z.land window 1 =? 1) ;;
           let entry_idx := shr_w window 1 mod 2 ^ ubits in
           entry <+ free (if entry_idx =? 0 then Ok self
                     else
                       '(_, t) <- split_at (Z.to_nat ((entry_idx - 1) * n)) table ;;
                       slice_to (Z.to_nat n) t) ;;
           v <+ c_mul_normalized_in_place v entry mem ;;
           free (Ok (v, bit))
         else free (Ok (v, bit))) ;;
      if bit =? 0 then free (Ok v)
      else
        v <+ c_large_square_in_place v mem ;;
        c_large_pow_loop fuel self table exp_words n window_len mem v (bit - 1)
  end.

(** src/modular/pow.rs:139-226; choosing the length of the window tries at most [wbits]
    lengths. *)
Definition c_large_pow_nontrivial (m : modulo_large) (exp : ubig) : counted modulo_large :=
  le <+ c_ubig_le (from_word 2) exp ;;
  ensure le ;;
  let n := len (rl_modulus (ml_ring m)) in
  bits <+ free (ubig_bit_len exp) ;;
  window_len <+ call (Z.to_nat wbits) (choose_pow_window_len bits) ;;
  let table_words := (2 ^ (window_len - 1) - 1) * n in
  l <+ free (ring_pow_layout word_ty (length (rl_modulus (ml_ring m))) window_len) ;;
  mem <+ call 0 (new_memory l) ;;
  '(table, mem) <+ call (Z.to_nat table_words) (alloc_fill (Z.to_nat table_words) 0 mem) ;;
  v <+ c_large_mul_in_place m m mem ;;
  table <+ c_pow_table (Z.to_nat (2 ^ (window_len - 1) - 1)) 1 (ml_ring m) (ml_value m) (ml_value v) table mem ;;
  bit <+ free (usize_chk (bits - 2)) ;;
  c_large_pow_loop (S (Z.to_nat bit)) (ml_value m) table (as_words exp) n window_len mem v bit.

(** src/modular/pow.rs:129-137 *)
Definition c_large_pow (m : modulo_large) (exp : ubig) : counted modulo_large :=
  match exp with
  | Small w =>
      if w =? 0 then c_large_from_ubig (from_word 1) (ml_ring m)
      else if w =? 1 then call (length (ml_value m)) (Ok (mkModuloLarge (ml_ring m) (ml_value m)))
      else c_large_pow_nontrivial m exp
  | Large _ => c_large_pow_nontrivial m exp
  end.

(** src/modular/pow.rs:30-35 *)
Definition c_mod_pow (m : modulo) (exp : ubig) : counted modulo :=
  match m with
  | MSmall a => m <+ c_small_pow a exp ;; free (Ok (MSmall m))
  | MLarge a => m <+ c_large_pow a exp ;; free (Ok (MLarge m))
  end.

End CostModular.
