(** C46: rings and their elements are shown by their modulus and residue. *)
From Verif Require Import Model.Base Model.Buffer Model.UBig Model.Fmt Model.Modular Model.ModularFmt
  Spec.Val Spec.Num Spec.Digits Spec.FmtText Spec.Modular Spec.ModularText
  Proofs.ModularFmtProofs Proofs.Samples Proofs.TextSamples.

(** The full statement would be these two for [Debug] with [{:x?}] and [{:X?}] too; that
    is false, see below.  [dh] is the flag that these set. *)
Theorem C46_ring_partial (A : Arch) (AOK : ArchOk A) (be : bool) (dh : option bool) (t : fmt_trait) (r : ring) (n : Z) (f : Formatter) :
  is_ring r n -> width_ok f -> t <> TDebug \/ dh = None -> ring_text t f n (ring_fmt be dh t r f).
Proof. exact (ring_shows be dh t r n f). Qed.
Print Assumptions C46_ring_partial.

Theorem C46_element_partial (A : Arch) (AOK : ArchOk A) (be : bool) (dh : option bool) (t : fmt_trait)
  (r : ring) (n : Z) (x : modulo) (a : Z) (f : Formatter) :
  element r n x a -> width_ok f -> t <> TDebug \/ dh = None -> element_text t f n a (modulo_fmt be dh t x f).
Proof. exact (element_shows be dh t r n x a f). Qed.
Print Assumptions C46_element_partial.

(** Under [{:x?}] and [{:X?}] the radix depends on the size of the modulus. *)
Theorem C46_debug_hex (A : Arch) (AOK : ArchOk A) (be up : bool) (r : ring) (n : Z) (x : modulo) (a : Z) (f : Formatter) :
  element r n x a -> width_ok f ->
  (n < 2 ^ wbits -> element_text (if up then TUpperHex else TLowerHex) f n a (modulo_fmt be (Some up) TDebug x f)) /\
  (2 ^ wbits <= n -> element_text TDisplay f n a (modulo_fmt be (Some up) TDebug x f)).
Proof. destruct up; [exact (debug_hex_shows be true r n x a f)|exact (debug_hex_shows be false r n x a f)]. Qed.
Print Assumptions C46_debug_hex.

Theorem C46_debug_is_display_refuted (A : Arch) (AOK : ArchOk A) (be : bool) : exists r n f,
  is_ring r n /\ width_ok f /\ ring_fmt be (Some false) TDebug r f <> ring_fmt be (Some false) TDisplay r f.
Proof. exact (debug_hex_differs be). Qed.
Print Assumptions C46_debug_is_display_refuted.

(** 61 is '='; the texts of tests/modular.rs:385-392. *)
Definition centred : Formatter := mkFormatter 61 (Some AlignCenter) (Some 5) false false false.
Definition alternate : Formatter := mkFormatter 32 None None false true false.
Definition plain : Formatter := mkFormatter 32 None None false false false.

Example C46_small : let A := arch16 in
  (r <- ring_new 1 (Small 100) ;; m <- unsigned_into_modulo 32 105 r ;; modulo_fmt false None TDisplay m centred) = Ok (txt "==5== (mod =100=)") /\
  (r <- ring_new 1 (Small 100) ;; m <- unsigned_into_modulo 32 105 r ;; modulo_fmt false None TLowerHex m alternate) = Ok (txt "0x5 (mod 0x64)") /\
  (r <- ring_new 1 (Small 100) ;; m <- unsigned_into_modulo 32 105 r ;; modulo_fmt false (Some true) TDebug m plain) = Ok (txt "5 (mod 64)") /\
  (r <- ring_new 1 (Small 100) ;; ring_fmt false None TBinary r plain) = Ok (txt "mod 1100100").
Proof. cbv zeta. sample. Qed.
Example C46_large : let A := arch16 in
  (r <- ring_new 1 (lg [5; 1]) ;; m <- signed_into_modulo 32 (-65543) r ;; modulo_fmt false (Some false) TDebug m plain) = Ok (txt "65539 (mod 65541)") /\
  (r <- ring_new 1 (lg [5; 1]) ;; m <- signed_into_modulo 32 (-65543) r ;; modulo_fmt true None TUpperHex m alternate) = Ok (txt "0x10003 (mod 0x10005)").
Proof. cbv zeta. sample. Qed.
Example C46_options : width_ok centred /\ width_ok alternate /\ width_ok plain.
Proof. repeat split; intros w E; try discriminate; injection E as <-; discriminate. Qed.
