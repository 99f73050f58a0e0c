(** C55: formatting into sinks that report errors. *)
From Verif Require Import Model.Base Model.Buffer Model.UBig Model.IBig Model.Fmt Model.Modular Model.ModularFmt Model.Sink
  Spec.Val Spec.Num Spec.Digits Spec.FmtText Spec.Modular Spec.ModularText Spec.Sinks
  Proofs.SinkProofs Proofs.Samples Proofs.TextSamples.

(** [delivers m s]: there are calls of the sink, the same for all sinks, that make up
    the text [s]; [m] makes them in turn up to the first one that fails, and reports
    that failure.  All strings passed are ASCII, so the unchecked conversion of
    bytes to text in src/fmt/digit_writer.rs:58 is sound. *)
Theorem C55_ubig (A : Arch) (AOK : ArchOk A) (be : bool) (t : fmt_trait) (u : ubig) (f : Formatter) :
  ubig_ok u -> width_ok f ->
  exists s, trait_text t f (uval u) s /\ delivers (fun W put => ubig_fmt_to be put t u f) s.
Proof. exact (ubig_fmt_delivers be t u f). Qed.
Print Assumptions C55_ubig.

Theorem C55_ibig (A : Arch) (AOK : ArchOk A) (be : bool) (t : fmt_trait) (x : ibig) (f : Formatter) :
  ibig_ok x -> width_ok f ->
  exists s, trait_text t f (ival x) s /\ delivers (fun W put => ibig_fmt_to be put t x f) s.
Proof. exact (ibig_fmt_delivers be t x f). Qed.
Print Assumptions C55_ibig.

Theorem C55_ubig_in_radix (A : Arch) (AOK : ArchOk A) (be : bool) (u : ubig) (radix : Z) (f : Formatter) :
  ubig_ok u -> width_ok f -> 2 <= radix <= 36 ->
  exists r s, ubig_in_radix u radix = Ok r /\ shows (Ok s) f radix (f_alternate f) [] (uval u) /\
    delivers (fun W put => in_radix_display_to be put r f) s.
Proof. exact (ubig_in_radix_delivers be u radix f). Qed.
Print Assumptions C55_ubig_in_radix.

Theorem C55_ibig_in_radix (A : Arch) (AOK : ArchOk A) (be : bool) (x : ibig) (radix : Z) (f : Formatter) :
  ibig_ok x -> width_ok f -> 2 <= radix <= 36 ->
  exists r s, ibig_in_radix x radix = Ok r /\ shows (Ok s) f radix (f_alternate f) [] (ival x) /\
    delivers (fun W put => in_radix_display_to be put r f) s.
Proof. exact (ibig_in_radix_delivers be x radix f). Qed.
Print Assumptions C55_ibig_in_radix.

(** For rings and their elements the text is that of C46. *)
Theorem C55_ring (A : Arch) (AOK : ArchOk A) (be : bool) (dh : option bool) (t : fmt_trait) (r : ring) (n : Z) (f : Formatter) :
  is_ring r n -> width_ok f ->
  exists s, ring_fmt be dh t r f = Ok s /\ delivers (fun W put => ring_fmt_to be put dh t r f) s.
Proof. exact (ring_delivers be dh t r n f). Qed.
Print Assumptions C55_ring.

Theorem C55_element (A : Arch) (AOK : ArchOk A) (be : bool) (dh : option bool) (t : fmt_trait)
  (r : ring) (n : Z) (x : modulo) (a : Z) (f : Formatter) :
  element r n x a -> width_ok f ->
  exists s, modulo_fmt be dh t x f = Ok s /\ delivers (fun W put => modulo_fmt_to be put dh t x f) s.
Proof. exact (element_delivers be dh t r n x a f). Qed.
Print Assumptions C55_element.

(** What follows for a sink that keeps the text it accepts, like a [String] or a
    buffer of bounded size: it gets the whole text and success is reported, or it gets
    an initial part of the text and failure is reported. *)
Theorem C55_prefix (m : forall W : Type, (W -> piece -> W * bool) -> W -> res (wres W W)) (t : list Z)
  (W : Type) (put : W -> piece -> W * bool) (view : W -> list Z) (s : W) :
  delivers m t -> keeps put view ->
  (exists s', m W put s = Ok (Done s') /\ view s' = view s ++ t) \/
  (exists s' a b, m W put s = Ok (Failed s') /\ t = a ++ b /\ view s' = view s ++ a).
Proof. exact (delivers_keeps m t W put view s). Qed.
Print Assumptions C55_prefix.

Theorem C55_infallible (m : forall W : Type, (W -> piece -> W * bool) -> W -> res (wres W W)) (t : list Z)
  (W : Type) (put : W -> piece -> W * bool) (view : W -> list Z) (s : W) :
  delivers m t -> keeps put view -> (forall s p, snd (put s p) = true) ->
  exists s', m W put s = Ok (Done s') /\ view s' = view s ++ t.
Proof. exact (delivers_all m t W put view s). Qed.
Print Assumptions C55_infallible.

Theorem C55_broken (m : forall W : Type, (W -> piece -> W * bool) -> W -> res (wres W W)) (t : list Z)
  (W : Type) (put : W -> piece -> W * bool) (s : W) :
  delivers m t -> t <> [] -> (forall s p, put s p = (s, false)) -> m W put s = Ok (Failed s).
Proof. exact (delivers_none m t W put s). Qed.
Print Assumptions C55_broken.

(** A buffer for at most [n] characters that refuses what does not fit. *)
Definition bounded (n : nat) (s : list Z) (p : piece) : list Z * bool :=
  if (List.length (s ++ piece_text p) <=? n)%nat then (s ++ piece_text p, true) else (s, false).

Example C55_bounded_keeps (n : nat) : keeps (bounded n) (fun s => s).
Proof.
  intros s p s' ok E. unfold bounded in E. destruct (_ <=? n)%nat; injection E as <- <-.
  - exists (piece_text p), []. rewrite app_nil_r. auto.
  - exists [], (piece_text p). rewrite app_nil_r. split; [reflexivity|]. split; [reflexivity|]. discriminate.
Qed.

Definition wide : Formatter := mkFormatter 42 (Some AlignCenter) (Some 9) true true false.

Example C55_case : let A := arch16 in
  ubig_fmt_to false (bounded 20) TLowerHex (lg [4242; 7; 1]) wide [] = Ok (Done (txt "+0x100071092")) /\
  ubig_fmt_to false (bounded 20) TDisplay (Small 405) wide [] = Ok (Done (txt "**+405***")) /\
  ubig_fmt_to false (bounded 8) TDisplay (Small 405) wide [] = Ok (Failed (txt "**+405**")) /\
  ubig_fmt_to false (bounded 5) TDisplay (Small 405) wide [] = Ok (Failed (txt "**+")) /\
  ibig_fmt_to true (bounded 4) TUpperHex (neg (lg [4242; 7; 1])) wide [] = Ok (Failed (txt "-0x")) /\
  in_radix_display_to false (bounded 4) (mkInRadix Negative (lg [4242; 7; 1]) 36) wide [] = Ok (Failed (txt "-")).
Proof. cbv zeta. sample. Qed.

(** A long number is flushed in several calls; 100 characters are taken in three of them. *)
Example C55_long : let A := arch16 in
  (match ubig_fmt_to false (bounded 100) TBinary (lg (repeat 21845 8)) wide [] with
   | Ok (Failed s) => List.length s = 99%nat | _ => False end).
Proof. cbv zeta. vm_compute. reflexivity. Qed.

Example C55_ring_case : let A := arch16 in
  (r <- ring_new 1 (Small 100) ;; ring_fmt_to false (bounded 5) None TDisplay r wide []) = Ok (Failed (txt "mod *")) /\
  (r <- ring_new 1 (lg [5; 1]) ;; m <- signed_into_modulo 32 (-65543) r ;;
   modulo_fmt_to false (bounded 12) None TDisplay m wide []) = Ok (Failed (txt "*+65539** (")).
Proof. cbv zeta. sample. Qed.
