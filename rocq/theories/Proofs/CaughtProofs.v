(** What a panic leaves behind, and clients that go on after panics. *)
From Verif Require Import Model.Base Model.Words Model.Memory Model.Add Model.FastDivide Model.Mul Model.Div Model.RawMemory Model.Buffer
  Model.UBig Model.IBig Model.Convert Model.AddOps Model.MulOps Model.ShiftOps Model.Bits Model.DivOps Model.PrimOps
  Model.Gcd Model.Pow Model.Radix Model.Parse Model.Fmt Model.Float Model.Serde Model.Modular Model.ModularFmt Model.Program Model.Client Model.Unwind
  Spec.Val Spec.Num Spec.Prim Spec.Ideal Spec.Modular Spec.Abstract Spec.Caught
  Proofs.Basics Proofs.BufferProofs Proofs.Bounds Proofs.ModularProofs Proofs.ModularApi Proofs.ProgramProofs Proofs.ClientProofs
  Proofs.ConvertProofs Proofs.PrimOpsProofs
  Props.C13 Props.C14 Props.C16 Props.C17 Props.C18 Props.C32 Props.C34 Props.C35 Props.C40 Props.C41.

Section CaughtProofs.
Context {A : Arch} {AOK : ArchOk A}.

Lemma retake_eq {S} (z : S) f s : retake z f s = match f s with Ok v => (v, Ok tt) | Panic p => (z, Panic p) end.
Proof. unfold retake, cbind, take, aside, store. destruct (f s); reflexivity. Qed.

Lemma uretake_rel f rhs u z : urel (f u rhs) z -> leaves_u (uretake f rhs u) z.
Proof.
  unfold uretake. rewrite retake_eq. destruct z; cbn; [intros (v & -> & H); exists v; auto|intros ->; reflexivity].
Qed.
Lemma retake_urel f u z : urel (f u) z -> leaves_u (retake ubig_default f u) z.
Proof. rewrite retake_eq. destruct z; cbn; [intros (v & -> & H); exists v; auto|intros ->; reflexivity]. Qed.
Lemma iretake_rel f rhs u z : irel (f u rhs) z -> leaves_i (iretake f rhs u) z.
Proof.
  unfold iretake. rewrite retake_eq. destruct z; cbn; [intros (v & -> & H); exists v; auto|intros ->; reflexivity].
Qed.
Lemma retake_irel f u z : irel (f u) z -> leaves_i (retake ibig_default f u) z.
Proof. rewrite retake_eq. destruct z; cbn; [intros (v & -> & H); exists v; auto|intros ->; reflexivity]. Qed.

Lemma uassign_rel op (by_ref : bool) v r a b : uassign op = Some (v, r) -> ubig_ok a -> ubig_ok b ->
  uassigns op = true /\ leaves_u ((if by_ref then r else v) b a) (ubin_ideal op (uval a) (uval b)).
Proof.
  intros E Ha Hb. pose proof (ubin_rel op a b Ha Hb) as F. rewrite Forall_forall in F.
  destruct op; cbn [uassign] in E; try discriminate; injection E as <- <-; (split; [reflexivity|]);
    destruct by_ref; apply uretake_rel, F; cbn [ubin_fns In]; auto 10.
Qed.

Lemma iassign_rel op (by_ref : bool) v r a b : iassign op = Some (v, r) -> ibig_ok a -> ibig_ok b ->
  iassigns op = true /\ leaves_i ((if by_ref then r else v) b a) (ibin_ideal op (ival a) (ival b)).
Proof.
  intros E Ha Hb. pose proof (ibin_rel op a b Ha Hb) as F. rewrite Forall_forall in F.
  destruct op; cbn [iassign] in E; try discriminate; injection E as <- <-; (split; [reflexivity|]);
    destruct by_ref; apply iretake_rel, F; cbn [ibin_fns In]; auto 10.
Qed.

Lemma uassign_none op : uassign op = None -> uassigns op = false.
Proof. destruct op; cbn; congruence. Qed.
Lemma iassign_none op : iassign op = None -> iassigns op = false.
Proof. destruct op; cbn; congruence. Qed.

Lemma uassign_prim_rel sg op f tb c a : uassign_prim sg op = Some f -> prim_bits tb -> prim_range sg tb c -> ubig_ok a ->
  prim_assigns op = true /\ leaves_u (f tb c a) (uprim_ideal sg op (uval a) c).
Proof.
  intros E Ht Hc Ha. pose proof (uprim_rel sg op tb c a Ht Hc Ha) as F. rewrite Forall_forall in F.
  assert (forall g, sg = false -> In (fun tb u x => p <- ubig_from_unsigned tb x ;; g u p) (uprim_fns sg op) ->
    leaves_u (uafter g tb c a) (uprim_ideal sg op (uval a) c)) as G.
  { intros g -> I. apply F in I. destruct (ubig_from_unsigned_spec tb c Ht Hc) as (p & Ep & _). rewrite Ep in I. cbn [bind] in I.
    unfold uafter, cbind, aside. rewrite Ep. apply uretake_rel, I. }
  destruct sg, op; cbn [uassign_prim] in E; try discriminate; injection E as <-; (split; [reflexivity|]);
    try (apply G; [reflexivity|cbn [uprim_fns In]; auto 10; fail]).
  all: try (cbv beta; match goal with |- leaves_u (retake _ (fun u => ?g _ u _) _) _ => apply retake_urel, (F g) end; cbn [uprim_fns In]; auto 10; fail).
  (* rem_assign_signed *)
  specialize (F ubig_rem_assign_signed (or_introl eq_refl)). unfold ubig_rem_assign_signed in F.
  unfold cbind, take, aside, store, ubig_default, from_word. destruct (ibig_from_signed tb c) as [p|p]; cbn [bind] in F.
  - destruct (ibig_rem_vv (ibig_from_ubig a) p) as [x|q]; cbn [bind] in F.
    + destruct (from_ibig_panic_on_overflow x) as [v|q]; destruct (uprim_ideal true PRem (uval a) c); cbn in F |- *;
        [destruct F as (u & [= <-] & F); eauto|discriminate|destruct F as (u & [=] & _)|congruence].
    + destruct (uprim_ideal true PRem (uval a) c); cbn in F |- *; [destruct F as (u & [=] & _)|congruence].
  - destruct (uprim_ideal true PRem (uval a) c); cbn in F |- *; [destruct F as (u & [=] & _)|congruence].
Qed.

Lemma uassign_prim_none sg op : uassign_prim sg op = None -> prim_assigns op = false.
Proof. destruct sg, op; cbn; congruence. Qed.

Lemma iassign_prim_rel sg op f tb c a : iassign_prim op = Some f -> prim_bits tb -> prim_range sg tb c -> ibig_ok a ->
  prim_assigns op = true /\ leaves_i (f sg tb c a) (iprim_ideal op (ival a) c).
Proof.
  intros E Ht Hc Ha. pose proof (iprim_rel sg op tb c a Ht Hc Ha) as F. rewrite Forall_forall in F.
  assert (forall g, In (fun tb u x => p <- ibig_from_prim sg tb x ;; g u p) (iprim_fns sg op) ->
    leaves_i (iafter g sg tb c a) (iprim_ideal op (ival a) c)) as G.
  { intros g I. apply F in I.
    destruct (ibig_from_prim_spec sg tb c Ht Hc) as (p & Ep & _).
    rewrite Ep in I. cbn [bind] in I. unfold iafter, cbind, aside. rewrite Ep. apply iretake_rel, I. }
  destruct op; cbn [iassign_prim] in E; try discriminate; injection E as <-; (split; [reflexivity|]);
    apply G; cbn [iprim_fns In]; auto 10.
Qed.

Lemma iassign_prim_none op : iassign_prim op = None -> prim_assigns op = false.
Proof. destruct op; cbn; congruence. Qed.


Lemma set_bit_at_rel u n : ubig_ok u -> 0 <= n < 2 ^ ubits -> leaves_u (set_bit_at n u) (fits (Z.lor (uval u) (2 ^ n))).
Proof.
  intros Hu Hn.
  assert (set_bit_at n u = match set_bit u n with Ok v => (v, Ok tt) | Panic p => (Small 0, Panic p) end) as E.
  { unfold set_bit_at, set_bit, cbind, take, aside, store. destruct u as [w|b].
    - destruct (n <? wbits); [reflexivity|]. destruct (with_bit_word_slow w n); reflexivity.
    - destruct (with_bit_large b n); reflexivity. }
  assert (urel (set_bit u n) (fits (Z.lor (uval u) (2 ^ n)))) as R.
  { destruct (C17_set_bit A AOK u n Hu Hn) as (z & Y & F).
    assert (z = Z.lor (uval u) (2 ^ n)) as <-; [|apply rel_yields, Y].
    apply C16_bits_determine. intros i Hi. rewrite F, Z.lor_spec, Z.pow2_bits_eqb, orb_comm, (Z.eqb_sym n i) by lia. reflexivity. }
  rewrite E. destruct (fits _); cbn in R |- *; [destruct R as (v & -> & R); eauto|rewrite R; reflexivity].
Qed.

Lemma ushl_at_rel u n : ubig_ok u -> 0 <= n < 2 ^ ubits -> leaves_u (ushl_assign n u) (fits (uval u * 2 ^ n)).
Proof. intros Hu Hn. apply retake_urel, rel_yields. exact (Forall_inv (C13_ubig_shl_exact A AOK u n Hu Hn)). Qed.
Lemma ushr_at_rel u n : ubig_ok u -> 0 <= n < 2 ^ ubits -> leaves_u (ushr_assign n u) (Ok (uval u / 2 ^ n)).
Proof. intros Hu Hn. apply retake_urel, rel_returns. assert (0 <= n) as N by lia. exact (Forall_inv (C14_ubig_shr_exact A AOK u n Hu N)). Qed.
Lemma ishl_at_rel u n : ibig_ok u -> 0 <= n < 2 ^ ubits -> leaves_i (ishl_assign n u) (ifits (ival u * 2 ^ n)).
Proof. intros Hu Hn. apply retake_irel, rel_iyields. exact (Forall_inv (C13_ibig_shl_exact A AOK u n Hu Hn)). Qed.
Lemma ishr_at_rel u n : ibig_ok u -> 0 <= n < 2 ^ ubits -> leaves_i (ishr_assign n u) (Ok (ival u / 2 ^ n)).
Proof. intros Hu Hn. apply retake_irel. assert (0 <= n) as N by lia. exact (Forall_inv (C14_ibig_shr_exact A AOK u n Hu N)). Qed.

Theorem shifts_at_rel u x n : ubig_ok u -> ibig_ok x -> 0 <= n < 2 ^ ubits ->
  leaves_u (ushl_assign n u) (fits (uval u * 2 ^ n)) /\ leaves_u (ushr_assign n u) (Ok (uval u / 2 ^ n)) /\
  leaves_i (ishl_assign n x) (ifits (ival x * 2 ^ n)) /\ leaves_i (ishr_assign n x) (Ok (ival x / 2 ^ n)).
Proof.
  intros Hu Hx Hn. exact (conj (ushl_at_rel u n Hu Hn) (conj (ushr_at_rel u n Hu Hn) (conj (ishl_at_rel x n Hx Hn) (ishr_at_rel x n Hx Hn)))).
Qed.

(** A function that stores only when it returns. *)
Definition keeps {S} (m : S * res unit) (s : S) (r : res S) : Prop :=
  m = match r with Ok v => (v, Ok tt) | Panic p => (s, Panic p) end.

Lemma clear_bit_keeps u n : ubig_ok u -> 0 <= n -> keeps (clear_bit_at n u) u (clear_bit u n).
Proof.
  intros Hu Hn. assert (forall b, u = Large b -> exists v, without_bit_large b n = Ok v) as L.
  { intros b ->. destruct (C18_clear_bit_partial A AOK (Large b) n Hu) as (v & E & _); [lia|right; left; exact (Large_ge b Hu)|]. exists v. exact E. }
  unfold keeps, clear_bit_at, clear_bit, cbind, take, aside, store, cret. destruct u as [w|b].
  - destruct (n <? wbits); reflexivity.
  - destruct (L b eq_refl) as [v ->]. reflexivity.
Qed.

Lemma uclone_from_keeps u v : keeps (uclone_from_at v u) u (ubig_clone_from u v).
Proof.
  unfold keeps, uclone_from_at, ubig_clone_from, resizing_clone_from_at, payload, cbind, fetch, aside, store.
  destruct u as [w|b], v as [x|c]; cbn [ubig_clone]; try reflexivity. destruct (resizing_clone_from b c); reflexivity.
Qed.
Lemma iclone_from_keeps u v : keeps (iclone_from_at v u) u (ibig_clone_from u v).
Proof. unfold keeps, iclone_from_at, ibig_clone_from, cbind, aside, store. destruct (ibig_clone v); reflexivity. Qed.

(** ** Elements *)
Definition tight {S T} (m : T * res unit) (s : T) (variant : S -> T) (r : res S) : Prop :=
  match r with
  | Ok v => m = (variant v, Ok tt)
  | Panic p => p = Internal \/ m = (s, Panic p)
  end.

Lemma get_internal {T} n (l : list T) p : get n l = Panic p -> p = Internal.
Proof. unfold get. destruct (nth_error l n); congruence. Qed.
Lemma check_internal (b : bool) {T} (r : res T) p : (check b ;; r) = Panic p -> p = Internal \/ r = Panic p.
Proof. destruct b; cbn; [auto|]. intros [= <-]. auto. Qed.
Lemma valid_internal r v p : large_is_valid r v = Panic p -> p = Internal.
Proof.
  unfold large_is_valid, cmp_same_len. destruct (length v =? length (rl_modulus r))%nat; cbn [bind]; [|discriminate].
  destruct (lex_cmp _ _); try discriminate. destruct (get 0 v) eqn:G; cbn [bind]; [discriminate|]. intros [= <-]. eapply get_internal, G.
Qed.

Lemma modify_tight f g m : (forall ws, match g ws (ml_ring m) with
    | Ok v => f (ml_ring m) ws = (v, Ok tt) | Panic p => p = Internal \/ f (ml_ring m) ws = (ws, Panic p) end) ->
  tight (modify_at f m) m (fun x => x) (modify m g).
Proof.
  intros F. specialize (F (ml_value m)). unfold tight, modify_at, modify, cbind, fetch, payload, aside. destruct (g _ _) as [v|p]; cbn [bind].
  - rewrite F. cbn [ml_ring ml_value]. destruct (large_is_valid (ml_ring m) v) as [ok|p] eqn:V; cbn [bind].
    + destruct ok; cbn; auto.
    + left. eapply valid_internal, V.
  - destruct F as [F|F]; [auto|]. right. rewrite F. destruct m. reflexivity.
Qed.

Lemma small_tight (m rhs : modulo_small) (f : Z -> Z -> ring_small -> res Z) :
  tight ((m0 <! fetch ;; _ <! aside (small_check_same_ring m0 rhs) ;;
          raw <! aside (f (ms_raw m0) (ms_raw rhs) (ms_ring m0)) ;; set_raw_at raw) m) m (fun x => x)
    (_ <- small_check_same_ring m rhs ;; raw <- f (ms_raw m) (ms_raw rhs) (ms_ring m) ;; set_raw m raw).
Proof.
  unfold tight, set_raw_at, cbind, fetch, aside, store. destruct (small_check_same_ring m rhs); cbn [bind]; [|auto].
  destruct (f _ _ _) as [raw|]; cbn [bind]; [|auto]. destruct (set_raw m raw); auto.
Qed.

Lemma large_add_tight m rhs : tight (large_add_at rhs m) m (fun x => x) (large_add_in_place m rhs).
Proof.
  unfold large_add_at, large_add_in_place, cbind at 1, fetch at 1. cbv beta iota.
  unfold cbind at 1, aside at 1. destruct (large_check_same_ring m rhs); cbn [bind assert]; [|cbn; auto].
  apply modify_tight. intros ws. unfold in_place, cbind, fetch, aside, store, cret.
  unfold add_same_len_in_place at 1 2. destruct (length ws =? length (ml_value rhs))%nat; cbn [bind assert]; [|auto].
  destruct (add_loop ws (ml_value rhs) false) as [ws1 o] eqn:L. destruct o.
  - cbn [bind assert]. unfold sub_same_len_in_place. destruct (length ws1 =? length (rl_modulus (ml_ring m)))%nat; cbn [bind assert]; [|auto].
    destruct (sub_loop ws1 _ false) as [ws2 o2]. destruct o2; cbn [bind assert Bool.eqb]; auto.
  - unfold cmp_same_len. destruct (length ws1 =? length (rl_modulus (ml_ring m)))%nat eqn:EL; cbn [bind assert]; [|auto].
    destruct (lex_cmp _ _); cbn [bind assert]; auto; unfold sub_same_len_in_place; rewrite EL; cbn [bind assert];
      destruct (sub_loop ws1 _ false) as [ws2 o2]; destruct o2; cbn [bind assert Bool.eqb]; auto.
Qed.

Lemma large_sub_tight m rhs : tight (large_sub_at rhs m) m (fun x => x) (large_sub_in_place m rhs).
Proof.
  unfold large_sub_at, large_sub_in_place, cbind at 1, fetch at 1. cbv beta iota.
  unfold cbind at 1, aside at 1. destruct (large_check_same_ring m rhs); cbn [bind assert]; [|cbn; auto].
  apply modify_tight. intros ws. unfold in_place, cbind, fetch, aside, store, cret.
  unfold sub_same_len_in_place at 1 2. destruct (length ws =? length (ml_value rhs))%nat; cbn [bind assert]; [|auto].
  destruct (sub_loop ws (ml_value rhs) false) as [ws1 o] eqn:L. destruct o; cbn [bind assert]; auto.
  unfold add_same_len_in_place. destruct (length ws1 =? length (rl_modulus (ml_ring m)))%nat; cbn [bind assert]; [|auto].
  destruct (add_loop ws1 _ false) as [ws2 o2]. destruct o2; cbn [bind assert]; auto.
Qed.

Lemma large_mul_tight m rhs mem : tight (large_mul_at rhs mem m) m (fun x => x) (large_mul_in_place m rhs mem).
Proof.
  apply modify_tight. intros ws. unfold cbind, fetch, aside, store.
  destruct (mul_normalized _ _ _ _) as [v|p]; cbn [bind]; [|auto]. destruct (copy_slice ws v); auto.
Qed.

Lemma tight_payload {S} (variant : S -> modulo) (m : cell S unit) s (r : res S) :
  tight (m s) s (fun x => x) r -> tight (payload variant s m (variant s)) (variant s) variant r.
Proof. unfold tight, payload. destruct r; [intros ->; auto|]. intros [H|H]; [auto|]. rewrite H. auto. Qed.

Lemma tight_variant {S} (variant : S -> modulo) (m : modulo * res unit) s (r : res S) :
  tight m s variant r -> tight m s (fun x => x) (v <- r ;; Ok (variant v)).
Proof. unfold tight. destruct r; auto. Qed.

Lemma massign_tight op x y f : nth_error (mbin_fns op) 4 = Some f -> tight (massign op y x) x (fun v => v) (f x y).
Proof.
  destruct op; cbn [mbin_fns nth_error massign]; intros [= <-].
  - unfold mod_add_assign_v, mod_add_assign_r, mod_add_at, cbind, fetch. destruct x as [a|a], y as [b|b];
      try (cbn; auto; fail); apply tight_variant, tight_payload; [apply small_tight|apply large_add_tight].
  - unfold mod_sub_assign_v, mod_sub_assign_r, mod_sub_at, cbind, fetch. destruct x as [a|a], y as [b|b];
      try (cbn; auto; fail); apply tight_variant, tight_payload; [apply small_tight|apply large_sub_tight].
  - unfold mod_mul_assign_v, mod_mul_assign_r, mod_mul_at. unfold cbind at 1, fetch. destruct x as [a|a], y as [b|b]; try (cbn; auto; fail).
    + unfold cbind at 1, aside. destruct (small_check_same_ring a b); cbn [bind]; [|cbn; auto].
      apply tight_variant, tight_payload, small_tight.
    + unfold cbind at 1, aside at 1. destruct (large_check_same_ring a b); cbn [bind]; [|cbn; auto].
      unfold cbind at 1, aside at 1. destruct (ring_mul_layout _ _) as [l|]; cbn [bind]; [|cbn; auto].
      unfold cbind at 1, aside at 1. destruct (new_memory l) as [mem|]; cbn [bind]; [|cbn; auto].
      apply tight_variant, tight_payload, large_mul_tight.
  - unfold mod_div_assign_v, mod_div_assign_r, mod_div_at, cbind, fetch, aside, store, tight. destruct (mod_div_rr x y); auto.
Qed.

(** The documented outcomes of the assignment operators of elements. *)
Definition sound (f : res modulo) (good : modulo -> Prop) : Prop :=
  match f with Ok v => good v | Panic p => documented p end.

Lemma mbin_same op r n x a y b f : nth_error (mbin_fns op) 4 = Some f -> element r n x a -> element r n y b ->
  sound (f x y) (fun v => exists c, element r n v c /\
    match op with
    | MAdd => c = (a + b) mod n
    | MSub => c = (a - b) mod n
    | MMul => c = (a * b) mod n
    | MDiv => Z.gcd b n = 1 /\ (c * b) mod n = a mod n
    end).
Proof.
  intros Hf E E'. unfold documented. destruct op; cbn [mbin_fns] in Hf.
  - destruct (nth_forall _ _ _ _ (C32_add A AOK _ _ _ _ _ _ E E') Hf) as (v & -> & H). cbn. eauto.
  - destruct (nth_forall _ _ _ _ (C32_sub A AOK _ _ _ _ _ _ E E') Hf) as (v & -> & H). cbn. eauto.
  - pose proof (nth_forall _ _ _ _ (C32_mul A AOK _ _ _ _ _ _ E E') Hf) as Q. cbv beta in Q. unfold yields_mod_if in Q.
    destruct (room_for_mul n); [destruct Q as (v & -> & H); cbn; eauto|rewrite Q; cbn; unfold documented; auto 12].
  - destruct (nth_forall _ _ _ _ (C34_div_all A AOK _ _ _ _ _ _ E E') Hf) as [[_ Q]|[(_ & _ & Q)|[(_ & _ & Q)|[Q _]]]];
      try (rewrite Q; cbn; unfold documented; auto 12; fail).
    destruct Q as [Q1 Q2]. destruct (Z.eq_dec (Z.gcd b n) 1) as [G|G].
    + destruct (Q1 G) as (v & c & -> & Hv & Hc). cbn. exists c. exact (conj Hv (conj G Hc)).
    + rewrite (Q2 G). cbn. unfold documented. auto 12.
Qed.

Lemma mbin_other op r n x a s m y b f : nth_error (mbin_fns op) 4 = Some f -> element r n x a -> element s m y b ->
  ring_addr r <> ring_addr s -> sound (f x y) (fun _ => False).
Proof.
  intros Hf E E' NE. assert (ring_addr (ring_of x) <> ring_addr (ring_of y)) as NA.
  { destruct E as (_ & _ & S1), E' as (_ & _ & S2). rewrite (stored_ring _ _ _ S1), (stored_ring _ _ _ S2). congruence. }
  destruct (C35_different_rings A AOK x y NA) as [F _]. apply Forall_app in F as [F1 F]. apply Forall_app in F as [F2 F3].
  destruct op; cbn [mbin_fns] in Hf.
  - rewrite (nth_forall _ _ _ _ F1 Hf). cbn. unfold documented. auto 12.
  - rewrite (nth_forall _ _ _ _ F2 Hf). cbn. unfold documented. auto 12.
  - rewrite (nth_forall _ _ _ _ F3 Hf). cbn. unfold documented. auto 12.
  - destruct (nth_forall _ _ _ _ (C35_div_different_rings A AOK _ _ _ _ _ _ _ _ E E' NE) Hf) as [[G ->]|[[G ->]|[-> G]]]; cbn; unfold documented; auto 12.
Qed.

Lemma mbin_fn op : exists f, nth_error (mbin_fns op) 4 = Some f.
Proof. destruct op; cbn; eauto. Qed.

Lemma documented_internal p : documented p -> p <> Internal.
Proof. unfold documented. intuition congruence. Qed.

Lemma tight_sound m s r good : tight m s (fun v : modulo => v) r -> sound r good ->
  match m with (v, Ok _) => good v | (v, Panic p) => v = s /\ documented p end.
Proof.
  unfold tight, sound. destruct r as [v|p]; [intros ->; auto|]. intros [-> | ->] D; [|auto]. destruct (documented_internal _ D eq_refl).
Qed.

Theorem massign_same op r n x a y b : element r n x a -> element r n y b ->
  match massign op y x with
  | (v, Ok _) => exists c, element r n v c /\
      match op with
      | MAdd => c = (a + b) mod n
      | MSub => c = (a - b) mod n
      | MMul => c = (a * b) mod n
      | MDiv => Z.gcd b n = 1 /\ (c * b) mod n = a mod n
      end
  | (v, Panic p) => v = x /\ documented p
  end.
Proof.
  intros E E'. destruct (mbin_fn op) as [f Hf]. exact (tight_sound _ _ _ _ (massign_tight op x y f Hf) (mbin_same op r n x a y b f Hf E E')).
Qed.

Theorem massign_other op r n x a s m y b : element r n x a -> element s m y b -> ring_addr r <> ring_addr s ->
  exists p, massign op y x = (x, Panic p) /\ documented p.
Proof.
  intros E E' NE. destruct (mbin_fn op) as [f Hf].
  pose proof (tight_sound _ _ _ _ (massign_tight op x y f Hf) (mbin_other op r n x a s m y b f Hf E E' NE)) as H.
  destruct (massign op y x) as [v [[]|p]]; [destruct H|]. destruct H as [-> D]. eauto.
Qed.

Lemma mclone_from_eq x y : mclone_from_at y x = (mod_clone_from x y, Ok tt).
Proof.
  unfold mclone_from_at, mod_clone_from, large_clone_from_at, payload, copy_slice, cbind, fetch, store, aside.
  destruct x as [a|a], y as [b|b]; try reflexivity. cbn [ml_value ml_ring].
  destruct (length (ml_value a) =? length (ml_value b))%nat; cbn [bind]; reflexivity.
Qed.

(** ** Clients *)
Lemma at_u_sim known w s d m z : depicts_with known w s -> leaves_u (m (us (nums w) d)) z ->
  exists s', zeroing_u s d z s' (snd (at_u w d m)) /\ depicts (fst (at_u w d m)) s'.
Proof.
  intros D R. unfold at_u. destruct z as [v|p]; cbn in R.
  - destruct R as (u & -> & Hu & Hv). exists (aset_u s d v). split; [split; reflexivity|]. exists known. apply depicts_u; auto.
  - rewrite R. exists (aset_u s d 0). split; [split; reflexivity|]. exists known. apply depicts_u; auto.
    cbn. pose proof B_ge. lia.
Qed.
Lemma at_i_sim known w s d m z : depicts_with known w s -> leaves_i (m (is (nums w) d)) z ->
  exists s', zeroing_i s d z s' (snd (at_i w d m)) /\ depicts (fst (at_i w d m)) s'.
Proof.
  intros D R. unfold at_i. destruct z as [v|p]; cbn in R.
  - destruct R as (u & -> & Hu & Hv). exists (aset_i s d v). split; [split; reflexivity|]. exists known. apply depicts_i; auto.
  - rewrite R. exists (aset_i s d 0). split; [split; reflexivity|]. exists known. apply depicts_i; auto.
    apply (proj2 start_ok 0%nat).
Qed.

Lemma idle_sim w s : depicts w s -> exists s', idle s s' (snd (w, Seen (Base ONone))) /\ depicts (fst (w, Seen (Base ONone))) s'.
Proof. intros D. exists s. split; [split; reflexivity|auto]. Qed.

Lemma keeping_sim be c w s (t : world * report) : depicts w s -> call_ok c ->
  (forall w' x, call_step be c w = Ok (w', x) -> t = (w', Seen x)) ->
  (forall p, call_step be c w = Panic p -> documented p -> snd t = Caught p /\ (forall s, depicts w s -> depicts (fst t) s)) ->
  exists s', keeping c s s' (snd t) /\ depicts (fst t) s'.
Proof.
  intros D C H1 H2. pose proof (call_sim be c w s D C) as S. destruct (call_step be c w) as [[w' x]|p]; cbn in S.
  - rewrite (H1 w' x eq_refl). destruct S as (s' & S & D'). exists s'. split; [left; eauto|auto].
  - destruct (H2 p eq_refl (allowed_mild c s p S)) as [E D']. exists s. split; [right; exists p; auto|auto].
Qed.

Lemma put_same known w s d x : depicts_with known w s -> mods w d = Some x -> depicts_with known (put_m w d x) s.
Proof.
  intros (H1 & H2 & H3 & H4) E. split; [exact H1|]. split; [exact H2|]. split; [exact H3|].
  intros k. cbn [put_m mods]. unfold setv. destruct (Nat.eqb_spec k d) as [->|]; [|apply H4]. specialize (H4 d). rewrite E in H4. exact H4.
Qed.

Lemma act_sim be a w s : depicts w s -> act_ok a ->
  exists s', act_allowed a s s' (snd (act_step be a w)) /\ depicts (fst (act_step be a w)) s'.
Proof.
  intros D O. pose proof D as [known K]. pose proof K as ([HU HI] & _ & _ & HM).
  assert (forall n, ubig_ok (us (nums w) n)) as OU by (intro; apply HU). assert (forall n, ibig_ok (is (nums w) n)) as OI by (intro; apply HI).
  assert (forall n, uz (num_of s) n = uval (us (nums w) n)) as VU by (intro; symmetry; apply HU).
  assert (forall n, iz (num_of s) n = ival (is (nums w) n)) as VI by (intro; symmetry; apply HI).
  destruct a; cbn [act_step act_allowed act_ok] in *; rewrite ?VU, ?VI.
  - apply (keeping_sim be c w s); auto.
    + intros w' x ->. reflexivity.
    + intros p -> _. auto.
  - destruct (uassign op) as [[v r]|] eqn:E; cbn [when].
    + destruct (uassign_rel op by_ref v r _ _ E (OU d) (OU b)) as [-> R]. eapply at_u_sim; eauto.
    + rewrite (uassign_none _ E). apply idle_sim; auto.
  - eapply at_u_sim; [eauto|]. apply ushl_at_rel; auto.
  - eapply at_u_sim; [eauto|]. apply ushr_at_rel; auto.
  - eapply at_u_sim; [eauto|]. apply set_bit_at_rel; auto.
  - pose proof (clear_bit_keeps (us (nums w) d) n (OU d) (proj1 O)) as KP. unfold at_u, keeps in *. rewrite KP.
    apply (keeping_sim be (CBase (IUClearBit d n)) w s); auto; cbn [call_step step].
    + intros w' x. destruct (clear_bit (us (nums w) d) n); cbn [putu bind]; [intros [= <- <-]; reflexivity|discriminate].
    + intros p. destruct (clear_bit (us (nums w) d) n) as [v|q]; cbn [putu bind]; [discriminate|intros [= <-] _].
      split; [reflexivity|]. intros s0 [k0 D0]. exists k0. cbn [fst].
      destruct D0 as ([U0 I0] & D0). split; [|exact D0]. split; [|exact I0].
      intros j. cbn [put_u with_nums nums setu us]. unfold setv. destruct (Nat.eqb_spec j d) as [->|]; apply U0.
  - pose proof (uclone_from_keeps (us (nums w) d) (us (nums w) b)) as KP. unfold keeps in KP.
    destruct (proj1 (C40_clone_from A AOK _ _ (is (nums w) d) (is (nums w) d) (OU d) (OU b) (OI d) (OI d))) as (v & E & Hv).
    rewrite E in KP. eapply (at_u_sim known w s d (uclone_from_at (us (nums w) b)) (Ok (uval (us (nums w) b)))); [auto|]. exists v. auto.
  - destruct O as [O1 O2]. destruct (uassign_prim sg op) as [f|] eqn:E; cbn [when].
    + destruct (uassign_prim_rel sg op f tb x _ E O1 O2 (OU d)) as [-> R]. eapply at_u_sim; eauto.
    + rewrite (uassign_prim_none _ _ E). apply idle_sim; auto.
  - destruct (iassign op) as [[v r]|] eqn:E; cbn [when].
    + destruct (iassign_rel op by_ref v r _ _ E (OI d) (OI b)) as [-> R]. eapply at_i_sim; eauto.
    + rewrite (iassign_none _ E). apply idle_sim; auto.
  - eapply at_i_sim; [eauto|]. apply ishl_at_rel; auto.
  - eapply at_i_sim; [eauto|]. apply ishr_at_rel; auto.
  - pose proof (iclone_from_keeps (is (nums w) d) (is (nums w) b)) as KP. unfold keeps in KP.
    destruct (proj2 (C40_clone_from A AOK _ _ _ _ (OU d) (OU b) (OI d) (OI b))) as (v & E & Hv).
    rewrite E in KP. eapply (at_i_sim known w s d (iclone_from_at (is (nums w) b)) (Ok (ival (is (nums w) b)))); [auto|]. exists v. auto.
  - destruct O as [O1 O2]. destruct (iassign_prim op) as [f|] eqn:E; cbn [when].
    + destruct (iassign_prim_rel sg op f tb x _ E O1 O2 (OI d)) as [-> R]. eapply at_i_sim; eauto.
    + rewrite (iassign_prim_none _ E). apply idle_sim; auto.
  - apply (keeping_sim be (CM2 op 4 d d b) w s); [auto|exact I|..]; cbn [call_step]; unfold at_m, when.
    + intros w' x. destruct (mods w d) as [vx|]; cbn [on]; [|destruct (mods w b); intros [= <- <-]; reflexivity].
      destruct (mods w b) as [vy|]; cbn [on]; [|intros [= <- <-]; reflexivity].
      destruct (nth_error (mbin_fns op) 4) as [f|] eqn:F; [|destruct op; discriminate]. cbn [on].
      pose proof (massign_tight op vx vy f F) as T. destruct (f vx vy) as [v|p]; cbn in T |- *; [|discriminate].
      rewrite T. intros [= <- <-]. reflexivity.
    + intros p. destruct (mods w d) as [vx|] eqn:EX; cbn [on]; [|discriminate].
      destruct (mods w b) as [vy|]; cbn [on]; [|discriminate].
      destruct (nth_error (mbin_fns op) 4) as [f|] eqn:F; [|discriminate]. cbn [on].
      pose proof (massign_tight op vx vy f F) as T. destruct (f vx vy) as [v|q]; cbn in T |- *; [discriminate|].
      intros [= <-] Dp. destruct T as [T|T]; [destruct (documented_internal _ Dp T)|]. rewrite T.
      split; [reflexivity|]. intros s0 [k0 D0]. exists k0. apply put_same; auto.
  - apply (keeping_sim be (CMCloneFrom d b) w s); [auto|exact I|..]; cbn [call_step]; unfold at_m, when.
    + intros w' x. destruct (mods w b) as [vy|]; cbn [on]; [|intros [= <- <-]; reflexivity].
      destruct (mods w d) as [vx|]; cbn [on]; [|intros [= <- <-]; reflexivity]. rewrite mclone_from_eq. intros [= <- <-]. reflexivity.
    + intros p. destruct (mods w b) as [vy|]; cbn [on]; [|discriminate]. destruct (mods w d); cbn [on]; discriminate.
Qed.

Theorem bold_run_sim be n c : bold_ok c -> forall tr w s, depicts w s ->
  exists s', bold_allowed n c tr s (fst (bold_run be n c tr w)) s' /\ depicts (snd (bold_run be n c tr w)) s'.
Proof.
  intros C. induction n as [|n IH]; intros tr w s D; cbn [bold_run bold_allowed]; [exists s; auto|].
  destruct (c tr) as [a|] eqn:E; [|exists s; auto].
  destruct (act_sim be a w s D (C tr a E)) as (s1 & S & D1). destruct (act_step be a w) as [w1 x]. cbn [fst snd] in *.
  destruct (IH (x :: tr) w1 s1 D1) as (s2 & R & D2). exists s2. split; [exists s1, x; auto|auto].
Qed.

(** Every panic that is caught is one that the documentation announces. *)
Lemma fits_mild z p : fits z = Panic p -> documented p.
Proof. pose proof (mild_fits z) as M. intros E. rewrite E in M. exact M. Qed.

Ltac mildly := first [exact I | apply mild_fits | apply mild_ifits | apply mild_natural | apply mild_fits_nat | apply mild_fits_unsigned | apply mild_gcd
  | (apply mild_over; mildly)].

Lemma act_mild a s s' p : act_allowed a s s' (Caught p) -> documented p.
Proof.
  assert (forall s d r s', mild r -> zeroing_u s d r s' (Caught p) -> documented p) as ZU.
  { intros s0 d r s1 M. destruct r; cbn; [intros [_ [=]]|intros [_ [= ->]]; exact M]. }
  assert (forall s d r s', mild r -> zeroing_i s d r s' (Caught p) -> documented p) as ZI.
  { intros s0 d r s1 M. destruct r; cbn; [intros [_ [=]]|intros [_ [= ->]]; exact M]. }
  assert (forall c s s', keeping c s s' (Caught p) -> documented p) as K.
  { intros c s0 s1 [(y & _ & [=])|(q & H & [= <-] & _)]. eapply allowed_mild; eauto. }
  destruct a; cbn [act_allowed]; try (intros H; eapply K; exact H).
  - destruct (uassigns op); [|intros [_ [=]]]. apply ZU. destruct op; mildly.
  - apply ZU. mildly.
  - apply ZU. mildly.
  - apply ZU. mildly.
  - apply ZU. mildly.
  - destruct (prim_assigns op); [|intros [_ [=]]]. apply ZU. destruct op, sg; mildly.
  - destruct (iassigns op); [|intros [_ [=]]]. apply ZI. destruct op; mildly.
  - apply ZI. mildly.
  - apply ZI. mildly.
  - apply ZI. mildly.
  - destruct (prim_assigns op); [|intros [_ [=]]]. apply ZI. destruct op; mildly.
Qed.

Theorem bold_allowed_mild n c : forall tr s tr' s', (forall p, In (Caught p) tr -> documented p) ->
  bold_allowed n c tr s tr' s' -> forall p, In (Caught p) tr' -> documented p.
Proof.
  induction n as [|n IH]; intros tr s tr' s' T; cbn [bold_allowed]; [intros [-> _]; exact T|].
  destruct (c tr) as [a|]; [|intros [-> _]; exact T]. intros (s1 & x & H & R). eapply IH; [|exact R].
  intros p [->|I]; [eapply act_mild; eauto|auto].
Qed.

Theorem bold_run_panics be n c w : bold_ok c -> (exists s, depicts w s) ->
  forall p, In (Caught p) (fst (bold_run be n c [] w)) -> documented p.
Proof.
  intros C [s D] p I. destruct (bold_run_sim be n c C [] w s D) as (s' & R & _).
  eapply bold_allowed_mild; [|exact R|exact I]. intros q [].
Qed.

Theorem bold_run_well_formed be n c tr w : bold_ok c -> (exists s, depicts w s) -> well_formed (nums (snd (bold_run be n c tr w))).
Proof.
  intros C [s D]. destruct (bold_run_sim be n c C tr w s D) as (s' & _ & known & [HU HI] & _).
  split; intros k; [apply HU|apply HI].
Qed.

(** What is not the target of an operation in place is untouched, whatever happens. *)
Lemma act_others be a w : (forall c, a <> Plain c) -> let w' := fst (act_step be a w) in
  (forall k, target_u a <> Some k -> us (nums w') k = us (nums w) k) /\
  (forall k, target_i a <> Some k -> is (nums w') k = is (nums w) k).
Proof.
  assert (forall d m, let w' := fst (at_u w d m) in (forall k, Some d <> Some k -> us (nums w') k = us (nums w) k) /\ (forall k, is (nums w') k = is (nums w) k)) as U.
  { intros d m. unfold at_u. destruct (m _) as [v r]. cbn. split; [|auto]. intros k N. unfold setv. destruct (Nat.eqb_spec k d) as [->|]; [congruence|auto]. }
  assert (forall d m, let w' := fst (at_i w d m) in (forall k, us (nums w') k = us (nums w) k) /\ (forall k, Some d <> Some k -> is (nums w') k = is (nums w) k)) as V.
  { intros d m. unfold at_i. destruct (m _) as [v r]. cbn. split; [auto|]. intros k N. unfold setv. destruct (Nat.eqb_spec k d) as [->|]; [congruence|auto]. }
  assert (forall d m, let w' := fst (at_m w d m) in nums w' = nums w) as M.
  { intros d m. unfold at_m. destruct (mods w d) as [x|]; [|reflexivity]. destruct (m x). reflexivity. }
  intros NP. destruct a; cbv zeta; cbn [act_step target_u target_i]; try (destruct (NP c eq_refl)).
  - destruct (uassign op) as [[v r]|]; cbn [when]; [|auto]. split; intros; [apply U; congruence|apply U].
  - split; intros; [apply U; congruence|apply U].
  - split; intros; [apply U; congruence|apply U].
  - split; intros; [apply U; congruence|apply U].
  - split; intros; [apply U; congruence|apply U].
  - split; intros; [apply U; congruence|apply U].
  - destruct (uassign_prim sg op); cbn [when]; [|auto]. split; intros; [apply U; congruence|apply U].
  - destruct (iassign op) as [[v r]|]; cbn [when]; [|auto]. split; intros; [apply V|apply V; congruence].
  - split; intros; [apply V|apply V; congruence].
  - split; intros; [apply V|apply V; congruence].
  - split; intros; [apply V|apply V; congruence].
  - destruct (iassign_prim op); cbn [when]; [|auto]. split; intros; [apply V|apply V; congruence].
  - destruct (mods w b); cbn [when]; [rewrite M|]; auto.
  - destruct (mods w b); cbn [when]; [rewrite M|]; auto.
Qed.

End CaughtProofs.
