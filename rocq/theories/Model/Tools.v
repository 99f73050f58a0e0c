(** The programs that come with the library: examples/factorial.rs and
    dev-tools/src/bin/ntt_primes.rs.  Definitions only. *)
From Verif Require Import Model.Base Model.Words Model.Buffer Model.UBig Model.IBig Model.Convert Model.AddOps Model.MulOps
  Model.ShiftOps Model.Bits Model.DivOps Model.Gcd Model.Fmt Model.Rand Model.Modular Model.Macros Model.Parse.

Section Factorial.
Context {A : Arch}.

(** Arithmetic of [u32] panics when it overflows, as in a build with debug assertions.
    E.g. examples/factorial.rs:5 *)
Definition u32 (x : Z) : res Z := if (0 <=? x) && (x <? 2 ^ 32) then Ok x else Panic Internal.

(** examples/factorial.rs:4-11.  The recursion runs on fuel; running out of it is a panic,
    which the theorems exclude.  ([product(a, a)] would not end.) *)
Fixpoint product_rec (fuel : nat) (a b : Z) : res ubig :=
  match fuel with
  | O => Panic Internal
  | S fuel =>
      a1 <- u32 (a + 1) ;;
      if b =? a1 then ubig_from_unsigned 32 a
      else
        d <- u32 (b - a) ;;
        mid <- u32 (a + d / 2) ;;
        x <- product_rec fuel a mid ;;
        y <- product_rec fuel mid b ;;
        ubig_mul_vv x y
  end.
Definition product (a b : Z) : res ubig := product_rec 33 a b.

(** examples/factorial.rs:13-17, for any [n]: the number in the line printed; the text
    before it, made by the standard library, is left out. *)
Definition factorial_text (be : bool) (n : Z) : res (list Z) :=
  n1 <- u32 (n + 1) ;;
  factorial <- product 1 n1 ;;
  ubig_lower_hex be factorial (mkFormatter 32 None None false true false).

End Factorial.

Section NttPrimes.
Context {A : Arch}.

(** The number of a literal in [ubig!]: src/macros.rs:49-52. *)
Definition literal (v : Z) : res ubig := ubig_from_unsigned 128 v.

(** dev-tools/src/bin/ntt_primes.rs:61-66, from the head of the loop with index [i] and
    [k] iterations left. *)
Fixpoint rabin_loop (k : nat) (i : Z) (one p : modulo) (passed : option Z) : res (modulo * option Z) :=
  match k with
  | O => Ok (p, passed)
  | S k =>
      m <- mod_neg_r one ;;
      e <- modulo_eq p m ;;
      let passed := if e : bool then Some (i + 1) else passed in
      p <- mod_mul_rr p p ;;
      rabin_loop k (i + 1) one p passed
  end.

(** How often a loop up to the number [u] is repeated at most.
    E.g. dev-tools/src/bin/ntt_primes.rs:82-91 *)
Definition loop_bound (u : ubig) : nat := Z.to_nat (fold_right (fun w v => w + B * v) 0 (as_words u)).

(** dev-tools/src/bin/ntt_primes.rs:82-91: the loop over the divisors, on fuel; running
    out of it is a panic, which the theorems exclude. *)
Fixpoint divisor_loop (fuel : nat) (mult : ubig) (order : Z) (base one : modulo) (divisor : ubig) (generator_ok : bool) : res bool :=
  match fuel with
  | O => Panic Internal
  | S fuel =>
      le <- ubig_le divisor mult ;;
      if le : bool then
        r <- ubig_rem_rr mult divisor ;;
        zero <- literal 0 ;;
        generator_ok <-
          (if ubig_eqb r zero then
             q <- ubig_div_rr mult divisor ;;
             exponent <- ubig_shl_v q order ;;
             x <- mod_pow base exponent ;;
             e <- modulo_eq x one ;;
             Ok (if e : bool then false else generator_ok)
           else Ok generator_ok) ;;
        c <- literal 1 ;;
        divisor <- ubig_add_assign_v divisor c ;;
        divisor_loop fuel mult order base one divisor generator_ok
      else Ok generator_ok
  end.

(** dev-tools/src/bin/ntt_primes.rs:56-96: one round of the loop, after [base] has been
    chosen; [None]: go on with the next one. *)
Definition prime_round (mult : ubig) (order : Z) (one base : modulo) : res (option bool) :=
  p <- mod_pow base mult ;;
  e <- modulo_eq p one ;;
  '(p, passed) <- rabin_loop (Z.to_nat order) 0 one p (if e : bool then Some 0 else None) ;;
  match passed with
  | None => Ok (Some false)
  | Some k =>
      e <- modulo_eq p one ;;
      check e ;;
      two <- literal 2 ;;
      generator_ok <- divisor_loop (S (loop_bound mult)) mult order base one two (k =? order) ;;
      Ok (if generator_ok : bool then Some true else None)
  end.

(** dev-tools/src/bin/ntt_primes.rs:53: a random number from 1 up to [n] in the ring.
    [gen_range] of the rand crate checks the range and makes a sampler (Model/Rand.v).
    Neither the sampler nor the loop that calls it has a bound on the number of attempts;
    [None]: not finished after [attempts] of them. *)
Definition random_base (attempts : nat) (n : ubig) (r : ring) : rand (option modulo) :=
  rbind (lift (low <- literal 1 ;; high <- ubig_clone n ;; lt <- ubig_lt low high ;; check lt ;; uniform_ubig_new low high)) (fun s =>
  rbind (uniform_ubig_sample attempts s) (fun o =>
  match o with
  | None => Ret None
  | Some u => rbind (lift (ubig_into_modulo u r)) (fun m => Ret (Some m))
  end)).

(** dev-tools/src/bin/ntt_primes.rs:52-97 *)
Fixpoint prime_loop (rounds attempts : nat) (mult : ubig) (order : Z) (n : ubig) (r : ring) (one : modulo) : rand (option bool) :=
  match rounds with
  | O => Ret None
  | S rounds =>
      rbind (random_base attempts n r) (fun o =>
      match o with
      | None => Ret None
      | Some base =>
          rbind (lift (prime_round mult order one base)) (fun v =>
          match v with
          | Some answer => Ret (Some answer)
          | None => prime_loop rounds attempts mult order n r one
          end)
      end)
  end.

(** dev-tools/src/bin/ntt_primes.rs:46-98 *)
Definition is_prime (rounds attempts : nat) (mult : ubig) (order : Z) : rand (option bool) :=
  rbind (lift (check (1 <=? order) ;;
               s <- ubig_shl_r mult order ;; c <- literal 1 ;; n <- ubig_add_vv s c ;;
               r <- ring_new 0 n ;; one <- signed_into_modulo 32 1 r ;; Ok (n, r, one))) (fun '(n, r, one) =>
  prime_loop rounds attempts mult order n r one).

(** dev-tools/src/bin/ntt_primes.rs:107-109; [None]: no root found after [tries]. *)
Fixpoint root_loop (tries : nat) (r : ring) (exponent root : ubig) : res (option ubig) :=
  match tries with
  | O => Ok None
  | S tries =>
      m <- ubig_ref_into_modulo root r ;;
      p <- mod_pow m exponent ;;
      minus_one <- signed_into_modulo 32 (-1) r ;;
      e <- modulo_eq p minus_one ;;
      if e : bool then Ok (Some root)
      else c <- literal 1 ;; root <- ubig_add_assign_v root c ;; root_loop tries r exponent root
  end.

(** dev-tools/src/bin/ntt_primes.rs:101-111 *)
Definition find_root (tries : nat) (prime : ubig) (order : Z) : res (option ubig) :=
  check (1 <=? order) ;;
  r <- ring_new 0 prime ;;
  root <- literal 1 ;;
  c <- literal 1 ;;
  exponent <- ubig_shl_v c (order - 1) ;;
  root_loop tries r exponent root.

(** dev-tools/src/bin/ntt_primes.rs:18-23: the loop over [mult], on fuel like the loop
    over divisors. *)
Fixpoint mult_loop (fuel rounds attempts : nat) (bits order : Z) (mult : ubig) (primes : list ubig) : rand (option (list ubig)) :=
  match fuel with
  | O => Fail Internal
  | S fuel =>
      rbind (lift (ubig_bit_len mult)) (fun b =>
      if b <=? bits - order then
        rbind (is_prime rounds attempts mult order) (fun o =>
        match o with
        | None => Ret None
        | Some is =>
            rbind (lift (primes <- (if is : bool then s <- ubig_shl_r mult order ;; c <- literal 1 ;; p <- ubig_add_vv s c ;; Ok (primes ++ [p])
                                    else Ok primes) ;;
                         c <- literal 2 ;; mult <- ubig_add_assign_v mult c ;; Ok (primes, mult))) (fun '(primes, mult) =>
            mult_loop fuel rounds attempts bits order mult primes)
        end)
      else Ret (Some primes))
  end.

(** dev-tools/src/bin/ntt_primes.rs:14-24: the loop over [order], on fuel. *)
Fixpoint order_loop (fuel rounds attempts : nat) (bits order : Z) (primes : list ubig) : rand (option (Z * list ubig)) :=
  match fuel with
  | O => Fail Internal
  | S fuel =>
      if (length primes <? 3)%nat then
        rbind (lift (check (1 <? order) ;; literal 1)) (fun mult =>
        let order := order - 1 in
        rbind (mult_loop (S (Z.to_nat (2 ^ (bits - order)))) rounds attempts bits order mult primes) (fun o =>
        match o with
        | None => Ret None
        | Some primes => order_loop fuel rounds attempts bits order primes
        end))
      else Ret (Some (order, primes))
  end.

(** [primes.sort()], a function of the standard library: dev-tools/src/bin/ntt_primes.rs:26 *)
Fixpoint insert_sorted (x : ubig) (l : list ubig) : res (list ubig) :=
  match l with
  | [] => Ok [x]
  | y :: t => le <- ubig_le x y ;; if le : bool then Ok (x :: l) else t <- insert_sorted x t ;; Ok (y :: t)
  end.
Fixpoint sort_numbers (l : list ubig) : res (list ubig) :=
  match l with [] => Ok [] | x :: t => t <- sort_numbers t ;; insert_sorted x t end.

(** dev-tools/src/bin/ntt_primes.rs:28-31: the roots printed after the primes *)
Fixpoint roots_of (tries : nat) (l : list ubig) (order : Z) : res (option (list ubig)) :=
  match l with
  | [] => Ok (Some [])
  | p :: t =>
      o <- find_root tries p order ;;
      match o with
      | None => Ok None
      | Some root => o <- roots_of tries t order ;; Ok (option_map (cons root) o)
      end
  end.

(** dev-tools/src/bin/ntt_primes.rs:35-37 *)
Fixpoint multiply_all (range : ubig) (l : list ubig) : res ubig :=
  match l with [] => Ok range | p :: t => range <- ubig_mul_assign_r range p ;; multiply_all range t end.

(** dev-tools/src/bin/ntt_primes.rs:32-38 *)
Definition check_range (bits order : Z) (primes : list ubig) : res unit :=
  a <- literal 1 ;; a <- ubig_shl_v a bits ;; c <- literal 1 ;; word_max <- ubig_sub_vv a c ;;
  square <- ubig_mul_rr word_max word_max ;; s <- ubig_shl_v square (order - 1) ;; c <- literal 1 ;; need_range <- ubig_add_vv s c ;;
  one <- literal 1 ;;
  check (3 <=? length primes)%nat ;;
  range <- multiply_all one (skipn (length primes - 3) primes) ;;
  le <- ubig_le need_range range ;;
  check le ;; Ok tt.

(** dev-tools/src/bin/ntt_primes.rs:11-43: the order, the primes and the roots that it
    prints.  The texts, and the quotient of floating-point numbers at the end, are left
    out. *)
Definition print_primes (rounds attempts tries : nat) (bits : Z) : rand (option (Z * list ubig * list ubig)) :=
  rbind (order_loop (S (Z.to_nat bits)) rounds attempts bits bits []) (fun o =>
  match o with
  | None => Ret None
  | Some (order, primes) =>
      rbind (lift (primes <- sort_numbers primes ;; o <- roots_of tries primes order ;;
                   match o with
                   | None => Ok None
                   | Some roots => _ <- check_range bits order primes ;; Ok (Some (order, primes, roots))
                   end)) Ret
  end).

End NttPrimes.
