(** C44: digits to characters. *)
From Verif Require Import Model.Base Model.Radix Model.Fmt Spec.Val Spec.Num Spec.Digits Spec.FmtText
  Proofs.FmtRound Proofs.Samples Proofs.TextSamples.

(** A word full of digits (0..=9 without letters, 0..=35 otherwise) becomes their
    characters, in every byte and for both byte orders. *)
Theorem C44_chunk (A : Arch) (AOK : ArchOk A) (be : bool) (case : digit_case) (ds : list Z) :
  Z.of_nat (List.length ds) * 8 = wbits ->
  Forall (fun d => 0 <= d <= match case with NoLetters => 9 | _ => 35 end) ds ->
  digit_chunk_raw_to_ascii be ds case = Ok (map (digit_text (match case with Upper => true | _ => false end)) ds).
Proof. exact (chunk_ascii be case ds). Qed.
Print Assumptions C44_chunk.

(** Any series of writes outputs all the digits, once and in order. *)
Theorem C44_writer (A : Arch) (AOK : ArchOk A) (be : bool) (case : digit_case) (out : list Z) (chunks : list (list Z)) :
  Forall (Forall (fun d => 0 <= d <= match case with NoLetters => 9 | _ => 35 end)) chunks ->
  exists w, (w <- write_chunks be (dw_new out case) chunks ;; dw_flush be w) = Ok w /\
    dw_out w = out ++ map (digit_text (match case with Upper => true | _ => false end)) (List.concat chunks).
Proof. exact (writer_all be case out chunks). Qed.
Print Assumptions C44_writer.

Example C44_case : let A := arch32 in
  digit_chunk_raw_to_ascii false [9; 10; 0; 35] Lower = Ok (txt "9a0z") /\
  digit_chunk_raw_to_ascii true [9; 10; 0; 35] Upper = Ok (txt "9A0Z") /\
  match (w <- write_chunks false (dw_new (txt "-") Upper) [[1; 2; 3]; []; repeat 15 35; [11]] ;; dw_flush false w) with
  | Ok w => dw_out w = txt "-123FFFFFFFFFFFFFFFFFFFFFFFFFFFFFFFFFFFB"
  | Panic _ => False
  end.
Proof. cbv zeta. sample. Qed.
