(** The unit tests inside src: src/add.rs, src/buffer.rs, src/ubig.rs, src/math.rs,
    src/primitive.rs, src/radix.rs, src/memory.rs, src/div/mod.rs, src/mul/ntt.rs,
    src/modular/pow.rs.  (src/fast_divide.rs has tests with random numbers only.) *)
From Verif Require Import Tests.Harness Model.Add Model.Convert Model.Radix Model.DivWord Model.Modular Model.Ntt Model.RawMemory
  Proofs.TextSamples.

Definition lb (l1 l2 : list Z) : bool := if list_eq_dec Z.eq_dec l1 l2 then true else false.
Definition is_lb (r : res (list Z * bool)) (l : list Z) (b : bool) : bool :=
  match r with Ok (x, y) => lb x l && Bool.eqb y b | Panic _ => false end.
Definition is_lz (r : res (list Z * Z)) (l : list Z) (z : Z) : bool :=
  match r with Ok (x, y) => lb x l && (y =? z) | Panic _ => false end.
Definition is_ls (r : res (list Z * sign)) (l : list Z) (s : sign) : bool :=
  match r with Ok (x, y) => lb x l && sign_eqb y s | Panic _ => false end.
Definition is_buf (r : res Buffer) (ok : Buffer -> bool) : bool := match r with Ok b => ok b | Panic _ => false end.
(** [#[should_panic]] *)
Definition panics {T} (r : res T) : bool := match r with Ok _ => false | Panic _ => true end.
Definition W {A : Arch} : Z := B - 1.

(** src/add.rs:230-250 *)
Definition test_add_one_in_place (A : Arch) : bool :=
  all [is_lb (Ok (add_one_in_place [1; 2; 3])) [2; 2; 3] false; is_lb (Ok (add_one_in_place [W; W; 3])) [0; 0; 4] false;
       is_lb (Ok (add_one_in_place [W; W; W])) [0; 0; 0] true; is_lb (Ok (add_one_in_place [])) [] true].
Check passes test_add_one_in_place.

(** src/add.rs:252-268 *)
Definition test_add_word_in_place (A : Arch) : bool :=
  all [is_lb (add_word_in_place [1; 2; 3] 7) [8; 2; 3] false;
       is_lb (add_word_in_place [W / 2; W; 3] (W / 2 + 3)) [1; 0; 4] false;
       is_lb (add_word_in_place [W / 2; W; W] (W / 2 + 3)) [1; 0; 0] true].
Check passes test_add_word_in_place.

(** src/add.rs:270-285 *)
Definition test_add_signed_word_in_place (A : Arch) : bool :=
  all [is_lz (add_signed_word_in_place [] (-5)) [] (-5); is_lz (add_signed_word_in_place [1; 2; 3] 4) [5; 2; 3] 0;
       is_lz (add_signed_word_in_place [3; 0] (-4)) [W; W] (-1)].
Check passes test_add_signed_word_in_place.

(** src/add.rs:287-298 *)
Definition test_add_in_place (A : Arch) : bool :=
  all [is_lb (add_in_place [1; 2; 3] [3; 7]) [4; 9; 3] false;
       is_lb (add_in_place [W / 2; 1; W] [W / 2 + 3; W]) [1; 1; 0] true].
Check passes test_add_in_place.

(** src/add.rs:300-320 *)
Definition test_sub_one_in_place (A : Arch) : bool :=
  all [is_lb (Ok (sub_one_in_place [2; 2; 3])) [1; 2; 3] false; is_lb (Ok (sub_one_in_place [0; 0; 4])) [W; W; 3] false;
       is_lb (Ok (sub_one_in_place [0; 0; 0])) [W; W; W] true; is_lb (Ok (sub_one_in_place [])) [] true].
Check passes test_sub_one_in_place.

(** src/add.rs:322-338 *)
Definition test_sub_word_in_place (A : Arch) : bool :=
  all [is_lb (sub_word_in_place [8; 2; 3] 7) [1; 2; 3] false;
       is_lb (sub_word_in_place [1; 0; 4] (W / 2 + 3)) [W / 2; W; 3] false;
       is_lb (sub_word_in_place [1; 0; 0] (W / 2 + 3)) [W / 2; W; W] true].
Check passes test_sub_word_in_place.

(** src/add.rs:340-351 *)
Definition test_sub_in_place (A : Arch) : bool :=
  all [is_lb (sub_in_place [4; 9; 3] [3; 7]) [1; 2; 3] false;
       is_lb (sub_in_place [1; 1; 0] [W / 2 + 3; W]) [W / 2; 1; W] true].
Check passes test_sub_in_place.

(** src/add.rs:353-374 *)
Definition test_sub_in_place_with_sign (A : Arch) : bool :=
  all [is_ls (sub_in_place_with_sign [4; 9; 3] [3; 7]) [1; 2; 3] Positive;
       is_ls (sub_in_place_with_sign [4; 0; 0; 0] [1; 2; 0]) [W - 2; 1; 0; 0] Negative;
       is_ls (sub_in_place_with_sign [4; 9; 3] [3; 9; 3]) [1; 0; 0] Positive;
       is_ls (sub_in_place_with_sign [4; 9; 3] [5; 9; 3]) [1; 0; 0] Negative].
Check passes test_sub_in_place_with_sign.

(** src/buffer.rs:239-243 *)
Definition test_default_capacity (A : Arch) : bool :=
  all [is_z (default_capacity 2) 4; is_z (default_capacity 1000) 1127].
Check passes test_default_capacity.

(** src/buffer.rs:245-249 *)
Definition test_max_compact_capacity (A : Arch) : bool :=
  all [is_z (max_compact_capacity 2) 6; is_z (max_compact_capacity 1000) 1254].
Check passes test_max_compact_capacity.

(** A buffer with the capacity for [n] words that holds [ws]. *)
Definition buf {A : Arch} (n : Z) (ws : list Z) : res Buffer :=
  fold_left (fun b w => b <- b ;; push b w) ws (Buffer.allocate n).

(** src/buffer.rs:251-256 *)
Definition test_allocate (A : Arch) : bool :=
  is_buf (buf 1000 []) (fun b => (blen b =? 0) && is_z (default_capacity 1000) (cap b)).
Check passes test_allocate.

(** src/buffer.rs:258-262 *)
Definition test_allocate_too_large (A : Arch) : bool := should_panic (Buffer.allocate (MAX_CAPACITY + 1)).
Check passes test_allocate_too_large.

(** src/buffer.rs:264-274 *)
Definition test_ensure_capacity (A : Arch) : bool :=
  is_buf (buf 2 [7]) (fun b => (cap b =? 4) && is_buf (ensure_capacity b 4) (fun b => (cap b =? 4) &&
    is_buf (ensure_capacity b 5) (fun b => (cap b =? 7) && lb (words b) [7]))).
Check passes test_ensure_capacity.

(** src/buffer.rs:276-284 *)
Definition test_shrink (A : Arch) : bool :=
  is_buf (b <- buf 100 [7; 8] ;; shrink b) (fun b => is_z (default_capacity 2) (cap b) && lb (words b) [7; 8]).
Check passes test_shrink.

(** src/buffer.rs:286-295: the first assertion. The model has [pop] only as part of
    [pop_leading_zeros], its only use. *)
Definition test_push_pop (A : Arch) : bool := is_buf (buf 5 [1; 2]) (fun b => lb (words b) [1; 2]).
Check passes test_push_pop.

(** src/buffer.rs:297-306 *)
Definition test_pop_leading_zeros (A : Arch) : bool :=
  is_buf (buf 5 [1; 2; 0; 0]) (fun b => lb (words (pop_leading_zeros b)) [1; 2]).
Check passes test_pop_leading_zeros.

(** src/buffer.rs:308-315 *)
Definition test_extend (A : Arch) : bool :=
  is_buf (b <- buf 5 [1] ;; extend b [2; 3]) (fun b => lb (words b) [1; 2; 3]).
Check passes test_extend.

(** src/buffer.rs:317-323 *)
Definition test_push_zeros (A : Arch) : bool :=
  is_buf (b <- buf 5 [1] ;; push_zeros b 2) (fun b => lb (words b) [1; 0; 0]).
Check passes test_push_zeros.

(** src/buffer.rs:325-331 *)
Definition test_push_zeros_front (A : Arch) : bool :=
  is_buf (b <- buf 5 [1] ;; push_zeros_front b 2) (fun b => lb (words b) [0; 0; 1]).
Check passes test_push_zeros_front.

(** src/buffer.rs:333-341 *)
Definition test_truncate (A : Arch) : bool := is_buf (b <- buf 5 [1; 2; 3] ;; truncate b 1) (fun b => lb (words b) [1]).
Check passes test_truncate.

(** src/buffer.rs:343-351 *)
Definition test_erase_front (A : Arch) : bool := is_buf (b <- buf 5 [1; 2; 3] ;; erase_front b 2) (fun b => lb (words b) [3]).
Check passes test_erase_front.

(** src/buffer.rs:353-360 *)
Definition test_push_failed (A : Arch) : bool := panics (buf 2 (repeat 7 10)).
Check passes test_push_failed.

(** src/buffer.rs:362-369 *)
Definition test_push_may_reallocate (A : Arch) : bool :=
  is_buf (fold_left (fun b w => b <- b ;; push_may_reallocate b w) (repeat 7 10) (Buffer.allocate 2)) (fun b => blen b =? 10).
Check passes test_push_may_reallocate.

(** src/buffer.rs:371-379 *)
Definition test_buffer_clone (A : Arch) : bool :=
  is_buf (b <- buf 100 [7; 8] ;; buffer_clone b) (fun b => lb (words b) [7; 8] && is_z (default_capacity 2) (cap b)).
Check passes test_buffer_clone.

(** src/buffer.rs:381-390 *)
Definition test_buffer_clone_from (A : Arch) : bool :=
  is_buf (b <- buf 100 [7; 8] ;; b2 <- buf 50 [] ;; buffer_clone_from b2 (words b))
    (fun b => lb (words b) [7; 8] && is_z (default_capacity 50) (cap b)).
Check passes test_buffer_clone_from.

Definition upto (n : nat) : list Z := map Z.of_nat (seq 0 n).

(** src/buffer.rs:392-417 *)
Definition test_resizing_clone_from (A : Arch) : bool :=
  is_buf (buf 5 []) (fun b => (cap b =? 7) && is_buf (buf 4 (upto 4)) (fun b2 => (cap b2 =? 6) &&
    is_buf (resizing_clone_from b b2) (fun b => (cap b =? 7) && lb (words b) [0; 1; 2; 3] &&
      is_buf (b3 <- buf 100 (upto 100) ;; resizing_clone_from b b3) (fun b =>
        is_z (default_capacity 100) (cap b) && (blen b =? 100) &&
        is_buf (resizing_clone_from b b2) (fun b => (cap b =? 6) && lb (words b) [0; 1; 2; 3]))))).
Check passes test_resizing_clone_from.

Definition capacity {A : Arch} (x : ubig) : Z := match x with Small _ => 1 | Large b => cap b end.
Definition to_ubig {A : Arch} (n : Z) (ws : list Z) : res ubig := b <- buf n ws ;; from_buffer b.
Definition gen_ubig {A : Arch} (n : nat) : res ubig := to_ubig (Z.of_nat n) (upto n).
Definition with_u (r : res ubig) (ok : ubig -> bool) : bool := match r with Ok x => ok x | Panic _ => false end.

(** src/ubig.rs:174-207 *)
Definition test_buffer_to_ubig (A : Arch) : bool :=
  all [is_u (to_ubig 5 []) 0; is_u (to_ubig 5 [7]) 7; is_u (to_ubig 100 [7; 0; 0]) 7;
       with_u (to_ubig 5 [1; 2; 3; 4]) (fun x => capacity x =? 7); with_u (to_ubig 100 [1; 2; 3; 4]) (fun x => capacity x =? 6)].
Check passes test_buffer_to_ubig.

(** src/ubig.rs:209-218 *)
Definition test_clone (A : Arch) : bool :=
  is_u (ubig_clone (from_word 5)) 5 &&
  with_u (gen_ubig 10) (fun a => with_u (ubig_clone a) (fun b => ubig_eqb a b && (capacity a =? capacity b))).
Check passes test_clone.

(** src/ubig.rs:220-253 *)
Definition test_clone_from (A : Arch) : bool :=
  with_u (gen_ubig 10) (fun num => all
   [with_u (ubig_clone_from (from_word 3) num) (fun a => ubig_eqb a num &&
      with_u (ubig_clone_from a (from_word 7)) (fun a => ubig_eqb a (from_word 7) &&
        with_u (ubig_clone_from a (from_word 7)) (fun a => ubig_eqb a (from_word 7))));
    with_u (gen_ubig 9) (fun a => with_u (ubig_clone_from a num) (fun a' =>
      (capacity a' =? capacity a) && negb (capacity a' =? capacity num)));
    with_u (gen_ubig 2) (fun a => with_u (ubig_clone_from a num) (fun a' =>
      negb (capacity a' =? capacity a) && (capacity a' =? capacity num)));
    with_u (gen_ubig 100) (fun a => with_u (ubig_clone_from a num) (fun a' =>
      negb (capacity a' =? capacity a) && (capacity a' =? capacity num)))]).
Check passes test_clone_from.

(** src/math.rs:103-109 *)
Definition test_bit_len (A : Arch) : bool :=
  all [bit_len_n 32 0 =? 0; bit_len_n 32 0x9d =? 8; bit_len_n 32 0x80 =? 8; bit_len_n 32 0x7f =? 7].
Check passes test_bit_len.

(** src/math.rs:111-118 *)
Definition test_ceil_log_2 (A : Arch) : bool :=
  all [ceil_log_2 32 1 =? 0; ceil_log_2 32 7 =? 3; ceil_log_2 32 8 =? 3; ceil_log_2 32 9 =? 4; ceil_log_2 32 (2 ^ 32 - 1) =? 32].
Check passes test_ceil_log_2.

(** src/math.rs:120-126 *)
Definition test_ceil_div (A : Arch) : bool :=
  all [ceil_div 0 10 =? 0; ceil_div 9 10 =? 1; ceil_div 10 10 =? 1; ceil_div 11 10 =? 2].
Check passes test_ceil_div.

(** src/math.rs:128-134 *)
Definition test_round_up (A : Arch) : bool :=
  all [round_up 0 10 =? 0; round_up 9 10 =? 10; round_up 10 10 =? 10; round_up 11 10 =? 20].
Check passes test_round_up.

(** src/math.rs:136-141 *)
Definition test_ones (A : Arch) : bool := all [ones_n 32 0 =? 0; ones_n 32 5 =? 0x1f; ones_n 32 32 =? 2 ^ 32 - 1].
Check passes test_ones.

(** src/primitive.rs:176-179 *)
Definition test_word_from_le_bytes_partial (A : Arch) : bool := is_z (word_from_le_bytes_partial [1; 2]) 0x0201.
Check passes test_word_from_le_bytes_partial.

(** src/primitive.rs:181-184 *)
Definition test_word_from_be_bytes_partial (A : Arch) : bool := is_z (word_from_be_bytes_partial [1; 2]) 0x0102.
Check passes test_word_from_be_bytes_partial.

(** src/primitive.rs:186-190 *)
Definition test_double_word (A : Arch) : bool :=
  let '(lo, hi) := split_double_word (double_word 3 4) in (lo =? 3) && (hi =? 4).
Check passes test_double_word.

(** src/primitive.rs:192-198 *)
Definition test_to_sign_magnitude (A : Arch) : bool :=
  forallb (fun '(x, s, m) => let '(s', m') := to_sign_magnitude 32 x in sign_eqb s s' && (m =? m'))
   [(0, Positive, 0); (5, Positive, 5); (0x7fffffff, Positive, 0x7fffffff); (-0x80000000, Negative, 0x80000000)].
Check passes test_to_sign_magnitude.

(** src/primitive.rs:200-221 *)
Definition test_try_from_sign_magnitude (A : Arch) : bool :=
  forallb (fun '(s, m, x) => match try_from_sign_magnitude 32 s m, x with Some y, Some x => x =? y | None, None => true | _, _ => false end)
   [(Positive, 0, Some 0); (Positive, 5, Some 5); (Positive, 0x7fffffff, Some 0x7fffffff); (Positive, 0x80000000, None);
    (Negative, 0, Some 0); (Negative, 5, Some (-5)); (Negative, 0x7fffffff, Some (-0x7fffffff));
    (Negative, 0x80000000, Some (-0x80000000)); (Negative, 0x80000001, None); (Negative, 0xffffffff, None)].
Check passes test_try_from_sign_magnitude.

(** src/radix.rs:137-153. The expected number of digits k comes from floating
    point there: the largest k with radix^k <= 2^(WORD_BITS + 0.01). *)
Definition test_radix_info_table (A : Arch) : bool :=
  for_in 2 MAX_RADIX (fun radix => match radix_info radix with
    | Ok info => let k := digits_per_word info in
        (radix ^ k <=? B) && (B * 1006 <? radix ^ (k + 1) * 1000) && (is_pow2 radix || (range_per_word info =? radix ^ k))
    | Panic _ => false
    end).
Check passes test_radix_info_table.

(** src/radix.rs:155-165 *)
Definition test_digit_from_utf8_byte (A : Arch) : bool :=
  let is_d c radix o := forallb (fun b => match digit_from_utf8_byte b radix, o with
                                          | Some d, Some e => d =? e | None, None => true | _, _ => false end) c in
  all [is_d (txt "7") 10 (Some 7); is_d (txt "a") 16 (Some 10); is_d (txt "z") 36 (Some 35); is_d (txt "Z") 36 (Some 35);
       is_d (txt "?") 10 None; is_d (txt "a") 10 None; is_d (txt "z") 35 None; is_d [255] 35 None].
Check passes test_digit_from_utf8_byte.

Definition u32_ty : ty := mkTy 4 4.
Definition lay {A : Arch} (size align : Z) : res layout :=
  match from_size_align size align with Some l => Ok l | None => Panic Internal end.
(** A scratchpad of 8 bytes which the allocator puts at address [ptr] *)
Definition scratchpad {A : Arch} (ptr : Z) : res memory := l <- lay 8 4 ;; a <- allocation_new l ptr ;; Ok (chunk_of a).
Definition holds (r : res (Z * memory * store)) (l : list Z) : bool :=
  match r with Ok (ptr, _, st) => lb (read_slice st ptr 4 (List.length l)) l | Panic _ => false end.

(** src/memory.rs:199-216 *)
Definition test_memory (A : Arch) : bool :=
  forallb (fun ptr => match scratchpad ptr with
    | Ok memory =>
        let st := fun _ => 0 in let r := allocate_slice_fill u32_ty 1 3 memory st in
        holds r [3] &&
        match r with
        | Ok (a, new_memory, st) => let r' := allocate_slice_fill u32_ty 1 4 new_memory st in
            holds r' [4] && match r' with
                            | Ok (_, _, st) => lb (read_slice st a 4 1) [3] &&
                                holds (allocate_slice_copy u32_ty [4; 5] memory st) [4; 5] &&
                                holds (allocate_slice_copy_fill u32_ty 2 [4] 7 memory st) [4; 7]
                            | Panic _ => false
                            end
        | Panic _ => false
        end
    | Panic _ => false
    end) [4; 8; 4096].
Check passes test_memory.

(** src/memory.rs:218-226 *)
Definition test_memory_ran_out (A : Arch) : bool :=
  match scratchpad 4096 with
  | Ok memory => match allocate_slice_fill u32_ty 1 3 memory (fun _ => 0) with
                 | Ok (a, new_memory, st) => lb (read_slice st a 4 1) [3] && panics (allocate_slice_fill u32_ty 2 4 new_memory st)
                 | Panic _ => false
                 end
  | Panic _ => false
  end.
Check passes test_memory_ran_out.

Definition is_layout (r : res layout) (size align : Z) : bool :=
  match r with Ok l => (l_size l =? size) && (l_align l =? align) | Panic _ => false end.

(** src/memory.rs:228-236 *)
Definition test_add_layout (A : Arch) : bool := is_layout (a <- lay 1 1 ;; b <- lay 8 4 ;; add_layout a b) 12 4.
Check passes test_add_layout.

(** src/memory.rs:238-246 *)
Definition test_max_layout (A : Arch) : bool := is_layout (a <- lay 100 1 ;; b <- lay 8 4 ;; max_layout a b) 100 4.
Check passes test_max_layout.

(** src/div/mod.rs:149-154 *)
Definition test_div_by_word_in_place_empty (A : Arch) : bool :=
  match div_by_word_in_place [] 7 with Ok (_, rem) => rem =? 0 | Panic _ => false end.
Check passes test_div_by_word_in_place_empty.

(** src/div/mod.rs:156-161 *)
Definition test_rem_by_word_empty (A : Arch) : bool := is_z (rem_by_word [] 7) 0.
Check passes test_rem_by_word_empty.

Definition same (r1 r2 : res Z) : bool := match r1, r2 with Ok x, Ok y => x =? y | _, _ => false end.
Definition differ (r1 r2 : res Z) : bool := match r1, r2 with Ok x, Ok y => negb (x =? y) | _, _ => false end.

(** src/mul/ntt.rs:109-115 *)
Definition test_inverse (A : Arch) : bool :=
  forallb (fun p => let root := max_order_root p in let inv r := r <- r ;; component_inverse p r in
    same (r <- root ;; i <- inv root ;; component_mul p i r) (component_from_word p 1) && same (inv (inv root)) root) PRIMES.
Check passes test_inverse.

(** src/mul/ntt.rs:117-125. Elements differ if one component does. *)
Definition test_roots (A : Arch) : bool :=
  let one p := component_from_word p 1 in let nth k l := l <- l ;; Base.get k l in
  all [forallb (fun p => same (nth 0%nat (ROOTS p)) (one p)) PRIMES; existsb (fun p => differ (nth 1%nat (ROOTS p)) (one p)) PRIMES;
       forallb (fun p => same (nth 0%nat (INVERSE_ROOTS p)) (one p)) PRIMES;
       existsb (fun p => differ (nth 1%nat (INVERSE_ROOTS p)) (one p)) PRIMES].
Check passes test_roots.

(** src/modular/pow.rs:252-258 *)
Definition test_pow_word (A : Arch) : bool :=
  let pw e := ring <- ring_small_new 1 100 ;; a <- raw_from_word 17 ring ;; p <- pow_word a e ring ;; raw_residue p ring in
  is_z (pw 0) 1 && is_z (pw 15) 93.
Check passes test_pow_word.
