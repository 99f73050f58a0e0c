(** The benchmarks: benches/benchmarks.rs.  Definitions only.

    For one size, a benchmark draws its inputs and then calls a closure again and again to
    measure it.  The closures do not change the inputs, so one call stands for all.  The
    measurements, made by the criterion crate, are left out, and so is [black_box], which
    returns its argument.  The generator is any source of numbers, as in Model/Rand.v. *)
From Verif Require Import Model.Base Model.Words Model.Buffer Model.UBig Model.IBig Model.Convert Model.AddOps Model.MulOps
  Model.ShiftOps Model.DivOps Model.Gcd Model.Pow Model.Fmt Model.Parse Model.Rand Model.Modular Model.Tools.

(** Continue with the number drawn, if one was found.  E.g. benches/benchmarks.rs:27 *)
Definition obind {S T} (m : rand (option S)) (k : S -> rand (option T)) : rand (option T) :=
  rbind m (fun o => match o with None => Ret None | Some x => k x end).

(** What does not draw numbers.  E.g. benches/benchmarks.rs:30 *)
Definition olift {T} (m : res T) : rand (option T) := rbind (lift m) (fun x => Ret (Some x)).

Section Bench.
Context {A : Arch}.

(** [10usize.pow(e)], which panics when it overflows, as in a build with debug assertions.
    E.g. benches/benchmarks.rs:26 *)
Definition power_of_ten (e : Z) : res Z := usize_chk (10 ^ e).

(** benches/benchmarks.rs:13-18.  [gen_range] of the rand crate checks the range and makes
    a sampler (Model/Rand.v); [None]: not finished after [attempts] attempts. *)
Definition random_ubig (attempts : nat) (bits : Z) : rand (option ubig) :=
  rbind (lift (n <- usize_chk (bits - 1) ;;
               one <- literal 1 ;; low <- ubig_shl_v one n ;;
               one <- literal 1 ;; high <- ubig_shl_v one bits ;;
               lt <- ubig_lt low high ;; check lt ;; uniform_ubig_new low high)) (fun s =>
  uniform_ubig_sample attempts s).

(** benches/benchmarks.rs:26-30 *)
Definition bench_add (attempts : nat) (e : Z) : rand (option (ubig * ubig * ubig)) :=
  rbind (lift (power_of_ten e)) (fun bits =>
  obind (random_ubig attempts bits) (fun a =>
  obind (random_ubig attempts bits) (fun b =>
  olift (c <- ubig_add_rr a b ;; Ok (a, b, c))))).

(** benches/benchmarks.rs:43-48.  The sum consumes [a]; it is returned here to be compared
    with the result. *)
Definition bench_sub (attempts : nat) (e : Z) : rand (option (ubig * ubig * ubig)) :=
  rbind (lift (power_of_ten e)) (fun bits =>
  obind (random_ubig attempts bits) (fun a =>
  obind (random_ubig attempts bits) (fun b =>
  olift (c <- ubig_add_vr a b ;; d <- ubig_sub_rr c b ;; Ok (a, b, d))))).

(** benches/benchmarks.rs:61-65 *)
Definition bench_mul (attempts : nat) (e : Z) : rand (option (ubig * ubig * ubig)) :=
  rbind (lift (power_of_ten e)) (fun bits =>
  obind (random_ubig attempts bits) (fun a =>
  obind (random_ubig attempts bits) (fun b =>
  olift (c <- ubig_mul_rr a b ;; Ok (a, b, c))))).

(** benches/benchmarks.rs:78-82 *)
Definition bench_div (attempts : nat) (e : Z) : rand (option (ubig * ubig * (ubig * ubig))) :=
  rbind (lift (power_of_ten e)) (fun bits =>
  rbind (lift (usize_chk (2 * bits))) (fun bits2 =>
  obind (random_ubig attempts bits2) (fun a =>
  obind (random_ubig attempts bits) (fun b =>
  olift (c <- ubig_div_rem_rr a b ;; Ok (a, b, c)))))).

(** benches/benchmarks.rs:95-99 *)
Definition bench_gcd (attempts : nat) (e : Z) : rand (option (ubig * ubig * ubig)) :=
  rbind (lift (power_of_ten e)) (fun bits =>
  obind (random_ubig attempts bits) (fun a =>
  obind (random_ubig attempts bits) (fun b =>
  olift (c <- ubig_gcd a b ;; Ok (a, b, c))))).

(** benches/benchmarks.rs:109-113 *)
Definition bench_extended_gcd (attempts : nat) (e : Z) : rand (option (ubig * ubig * (ubig * ibig * ibig))) :=
  rbind (lift (power_of_ten e)) (fun bits =>
  obind (random_ubig attempts bits) (fun a =>
  obind (random_ubig attempts bits) (fun b =>
  olift (c <- ubig_extended_gcd a b ;; Ok (a, b, c))))).

(** The options of [{}], [{:x}] and [to_string()]: benches/benchmarks.rs:132 *)
Definition no_options : Formatter := mkFormatter 32 None None false false false.

(** benches/benchmarks.rs:126-134: the number, the text written to [out] and the capacity
    that was asked for. *)
Definition bench_to_hex (be : bool) (attempts : nat) (e : Z) : rand (option (ubig * list Z * Z)) :=
  rbind (lift (power_of_ten e)) (fun bits =>
  obind (random_ubig attempts bits) (fun a =>
  olift (capacity <- usize_chk (bits / 4 + 1) ;; out <- ubig_lower_hex be a no_options ;; Ok (a, out, capacity)))).

(** benches/benchmarks.rs:147-155 *)
Definition bench_to_dec (be : bool) (attempts : nat) (e : Z) : rand (option (ubig * list Z * Z)) :=
  rbind (lift (power_of_ten e)) (fun bits =>
  obind (random_ubig attempts bits) (fun a =>
  olift (capacity <- usize_chk (bits / 3 + 1) ;; out <- ubig_display be a no_options ;; Ok (a, out, capacity)))).

(** benches/benchmarks.rs:168-172 for radix 16, benches/benchmarks.rs:185-189 for 10 *)
Definition bench_from_text (radix : Z) (be : bool) (attempts : nat) (e : Z) : rand (option (ubig * presult ubig)) :=
  rbind (lift (power_of_ten e)) (fun bits =>
  obind (random_ubig attempts bits) (fun a =>
  olift (s <- ubig_in_radix_text be a radix no_options ;; r <- ubig_from_str_radix s radix ;; Ok (a, r)))).

(** benches/benchmarks.rs:201-203 *)
Definition bench_pow (e : Z) : res ubig :=
  p <- power_of_ten e ;; three <- literal 3 ;; ubig_pow three p.

(** benches/benchmarks.rs:216-222; [addr]: the address of the ring. *)
Definition bench_modulo_mul (addr : Z) (attempts : nat) (e : Z) : rand (option (ubig * ubig * ubig * modulo)) :=
  rbind (lift (power_of_ten e)) (fun bits =>
  obind (random_ubig attempts bits) (fun m =>
  rbind (lift (ring_new addr m)) (fun ring =>
  obind (random_ubig attempts bits) (fun u =>
  rbind (lift (ubig_ref_into_modulo u ring)) (fun a =>
  obind (random_ubig attempts bits) (fun v =>
  olift (b <- ubig_ref_into_modulo v ring ;; c <- mod_mul_rr a b ;; Ok (m, u, v, c)))))))).

(** benches/benchmarks.rs:238-244 *)
Definition bench_modulo_pow (addr : Z) (attempts : nat) (e : Z) : rand (option (ubig * ubig * ubig * modulo)) :=
  rbind (lift (power_of_ten e)) (fun bits =>
  obind (random_ubig attempts bits) (fun m =>
  rbind (lift (ring_new addr m)) (fun ring =>
  obind (random_ubig attempts bits) (fun u =>
  rbind (lift (ubig_ref_into_modulo u ring)) (fun a =>
  obind (random_ubig attempts bits) (fun b =>
  olift (c <- mod_pow a b ;; Ok (m, u, b, c)))))))).

End Bench.
