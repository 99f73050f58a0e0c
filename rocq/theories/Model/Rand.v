(** Random sampling: src/rand.rs.  Definitions only.

    Code that draws random numbers is a tree: [Pick n k] asks the generator for
    one of the [n] numbers below [n] and continues with [k].  The calls of the
    rand crate that the code makes are taken to be such choices: [gen_range(0..n)]
    and [gen_range(0..=n-1)] are [Pick n] (and panic when there is nothing to choose
    from), [gen::<Word>()] is [Pick B], and [fill] picks every word of the slice. *)
From Verif Require Import Model.Base Model.Words Model.Buffer Model.UBig Model.IBig Model.Convert Model.AddOps.

(** E.g. src/rand.rs:29 *)
Inductive rand (T : Type) : Type :=
| Ret (x : T)
| Fail (p : panic)
| Pick (n : Z) (k : Z -> rand T).
Arguments Ret {T} x.
Arguments Fail {T} p.
Arguments Pick {T} n k.

(** E.g. src/rand.rs:29 *)
Fixpoint rbind {S T} (m : rand S) (k : S -> rand T) : rand T :=
  match m with
  | Ret x => k x
  | Fail p => Fail p
  | Pick n c => Pick n (fun i => rbind (c i) k)
  end.

(** E.g. src/rand.rs:29 *)
Definition lift {T} (r : res T) : rand T :=
  match r with Ok x => Ret x | Panic p => Fail p end.

Section Rand.
Context {A : Arch}.

(** [rng.gen_range(0..n)]. E.g. src/rand.rs:34 *)
Definition gen_range (n : Z) : rand Z := if 0 <? n then Pick n Ret else Fail Internal.

(** [rng.gen::<Word>()]. E.g. src/rand.rs:72 *)
Definition gen_word : rand Z := Pick B Ret.

(** [rng.fill(&mut result[..i])]. E.g. src/rand.rs:77 *)
Fixpoint fill (i : nat) (result : list Z) : rand (list Z) :=
  match i with
  | O => Ret result
  | S i =>
      match result with
      | [] => Fail Internal
      | _ :: t => rbind gen_word (fun w => rbind (fill i t) (fun t => Ret (w :: t)))
      end
  end.

(** src/rand.rs:65-78, from the head of the loop with index [i]. *)
Fixpoint fill_loop (i : nat) (words result : list Z) : rand (bool * list Z) :=
  rbind (lift (get i result)) (fun r =>
  rbind (lift (get i words)) (fun w =>
  if r =? w then
    match i with
    | O => Ret (false, result)
    | S i =>
        rbind gen_word (fun c =>
        rbind (lift (set i c result)) (fun result =>
        rbind (lift (get i words)) (fun w =>
        if w <? c then Ret (false, result) else fill_loop i words result)))
    end
  else rbind (fill i result) (fun result => Ret (true, result)))).

(** src/rand.rs:57-79 *)
Definition try_fill_uniform (words result : list Z) : rand (bool * list Z) :=
  let n := length words in
  rbind (lift (assert ((0 <? n) && (length result =? n))%nat)) (fun _ =>
  let i := (n - 1)%nat in
  rbind (lift (get i words)) (fun w =>
  rbind (gen_range (w + 1)) (fun c =>
  rbind (lift (set i c result)) (fun result => fill_loop i words result)))).

(** src/rand.rs:46-48.  The loop has no bound on the number of attempts; [None]: not
    finished after [attempts] of them. *)
Fixpoint uniform_attempts (attempts : nat) (words buffer : list Z) : rand (option (list Z)) :=
  match attempts with
  | O => Ret None
  | S attempts =>
      rbind (try_fill_uniform words buffer) (fun '(ok, buffer) =>
      if ok : bool then Ret (Some buffer) else uniform_attempts attempts words buffer)
  end.

(** src/rand.rs:40-50 *)
Definition uniform_large (attempts : nat) (ws : list Z) : rand (option ubig) :=
  rbind (lift (b <- allocate (len ws) ;; push_zeros b (length ws))) (fun b =>
  rbind (uniform_attempts attempts ws (words b)) (fun o =>
  match o with
  | None => Ret None
  | Some r => rbind (lift (from_buffer (mkBuffer r (cap b)))) (fun u => Ret (Some u))
  end)).

(** src/rand.rs:27-37 *)
Definition uniform (attempts : nat) (range : ubig) : rand (option ubig) :=
  rbind (lift (assert (negb (ubig_eqb range (from_word 0))))) (fun _ =>
  match range with
  | Small word => rbind (gen_range word) (fun w => Ret (Some (from_word w)))
  | Large buffer => uniform_large attempts (words buffer)
  end).

(** src/rand.rs:93-96 *)
Record UniformUBig := mkUniformUBig { urange : ubig; uoffset : ubig }.

(** src/rand.rs:102-115 *)
Definition uniform_ubig_new (low high : ubig) : res UniformUBig :=
  range <- ubig_sub_rr high low ;;
  if ubig_eqb range (from_word 0) then Panic EmptyRange
  else o <- ubig_clone low ;; Ok (mkUniformUBig range o).

(** src/rand.rs:118-128 *)
Definition uniform_ubig_new_inclusive (low high : ubig) : res UniformUBig :=
  d <- ubig_sub_rr high low ;;
  range <- ubig_add_vv d (from_word 1) ;;
  o <- ubig_clone low ;; Ok (mkUniformUBig range o).

(** src/rand.rs:131-136 *)
Definition uniform_ubig_sample (attempts : nat) (self : UniformUBig) : rand (option ubig) :=
  rbind (uniform attempts (urange self)) (fun o =>
  match o with
  | None => Ret None
  | Some u => rbind (lift (ubig_add_vr u (uoffset self))) (fun u => Ret (Some u))
  end).

(** src/rand.rs:151-154 *)
Record UniformIBig := mkUniformIBig { irange : ubig; ioffset : ibig }.

(** [range <= IBig::from(0u8)]. E.g. src/rand.rs:166 *)
Definition not_positive (range : ibig) : res bool :=
  z <- ibig_from_unsigned 8 0 ;; c <- ibig_cmp range z ;;
  Ok (match c with Gt => false | _ => true end).

(** src/rand.rs:160-173 *)
Definition uniform_ibig_new (low high : ibig) : res UniformIBig :=
  range <- ibig_sub_rr high low ;;
  e <- not_positive range ;;
  if e : bool then Panic EmptyRange
  else o <- ibig_clone low ;; Ok (mkUniformIBig (unsigned_abs range) o).

(** src/rand.rs:176-189 *)
Definition uniform_ibig_new_inclusive (low high : ibig) : res UniformIBig :=
  d <- ibig_sub_rr high low ;;
  one <- ibig_from_unsigned 8 1 ;;
  range <- ibig_add_vv d one ;;
  e <- not_positive range ;;
  if e : bool then Panic EmptyRange
  else o <- ibig_clone low ;; Ok (mkUniformIBig (unsigned_abs range) o).

(** src/rand.rs:192-197 *)
Definition uniform_ibig_sample (attempts : nat) (self : UniformIBig) : rand (option ibig) :=
  rbind (uniform attempts (irange self)) (fun o =>
  match o with
  | None => Ret None
  | Some u => rbind (lift (ibig_add_vr (ibig_from_ubig u) (ioffset self))) (fun x => Ret (Some x))
  end).

End Rand.
