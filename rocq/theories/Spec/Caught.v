(** The abstract machine goes on after a panic.  A call that fails changes nothing.  An
    assignment operator on a number sets the number to zero when it fails; an assignment
    operator on a residue leaves the residue as it was. *)
From Verif Require Import Model.Base Model.Buffer Model.UBig Model.IBig Model.Modular Model.Program Model.Client Model.Unwind
  Spec.Val Spec.Num Spec.Prim Spec.Ideal Spec.Abstract.

Section Caught.
Context {A : Arch}.

(** What an operation in place leaves in the number and how it ends, when its ideal result
    is [z]: the number, or zero after a panic. *)
Definition leaves_u (m : ubig * res unit) (z : res Z) : Prop :=
  match z with
  | Ok v => exists u, m = (u, Ok tt) /\ ubig_ok u /\ uval u = v
  | Panic p => m = (Small 0, Panic p)
  end.
Definition leaves_i (m : ibig * res unit) (z : res Z) : Prop :=
  match z with
  | Ok v => exists u, m = (u, Ok tt) /\ ibig_ok u /\ ival u = v
  | Panic p => m = (mkIBig Positive (Small 0), Panic p)
  end.

(** The operators that have an assigning form. *)
Definition uassigns (op : ubin) : bool := match op with UAndNot | UGcd => false | _ => true end.
Definition iassigns (op : ibin) : bool := match op with IAndNot | IDivE | IRemE | IGcd => false | _ => true end.
Definition prim_assigns (op : prim_op) : bool :=
  match op with PSubFrom | PAndNot | PDivE | PRemE => false | _ => true end.

(** [s'] and [x] are what there is, and what is seen, after ... *)

(** ... a call that changes nothing when it fails, *)
Definition keeping (c : call) (s s' : aworld) (x : report) : Prop :=
  (exists y, allowed c s (Ok (s', y)) /\ x = Seen y) \/
  (exists p, allowed c s (Panic p) /\ x = Caught p /\ s' = s).

(** ... an operation that should store [r] in a number, *)
Definition zeroing_u (s : aworld) (d : nat) (r : res Z) (s' : aworld) (x : report) : Prop :=
  match r with
  | Ok v => s' = aset_u s d v /\ x = Seen (Base ONone)
  | Panic p => s' = aset_u s d 0 /\ x = Caught p
  end.
Definition zeroing_i (s : aworld) (d : nat) (r : res Z) (s' : aworld) (x : report) : Prop :=
  match r with
  | Ok v => s' = aset_i s d v /\ x = Seen (Base ONone)
  | Panic p => s' = aset_i s d 0 /\ x = Caught p
  end.

(** ... nothing. *)
Definition idle (s s' : aworld) (x : report) : Prop := s' = s /\ x = Seen (Base ONone).

Definition act_allowed (a : act) (s s' : aworld) (x : report) : Prop :=
  let u := uz (num_of s) in let i := iz (num_of s) in
  match a with
  | Plain c => keeping c s s' x
  | AtU op _ d b => if uassigns op then zeroing_u s d (ubin_ideal op (u d) (u b)) s' x else idle s s' x
  | AtUShl d n => zeroing_u s d (fits (u d * 2 ^ n)) s' x
  | AtUShr d n => zeroing_u s d (Ok (u d / 2 ^ n)) s' x
  | AtUSetBit d n => zeroing_u s d (fits (Z.lor (u d) (2 ^ n))) s' x
  | AtUClearBit d n => keeping (CBase (IUClearBit d n)) s s' x
  | AtUCloneFrom d b => zeroing_u s d (Ok (u b)) s' x
  | AtUPrim op sg _ c d => if prim_assigns op then zeroing_u s d (uprim_ideal sg op (u d) c) s' x else idle s s' x
  | AtI op _ d b => if iassigns op then zeroing_i s d (ibin_ideal op (i d) (i b)) s' x else idle s s' x
  | AtIShl d n => zeroing_i s d (ifits (i d * 2 ^ n)) s' x
  | AtIShr d n => zeroing_i s d (Ok (i d / 2 ^ n)) s' x
  | AtICloneFrom d b => zeroing_i s d (Ok (i b)) s' x
  | AtIPrim op _ _ c d => if prim_assigns op then zeroing_i s d (iprim_ideal op (i d) c) s' x else idle s s' x
  | AtM op d b => keeping (CM2 op 4 d d b) s s' x
  | AtMCloneFrom d b => keeping (CMCloneFrom d b) s s' x
  end.

Fixpoint bold_allowed (n : nat) (c : bold_app) (tr : list report) (s : aworld) (tr' : list report) (s' : aworld) : Prop :=
  match n with
  | O => tr' = tr /\ s' = s
  | S n => match c tr with
           | None => tr' = tr /\ s' = s
           | Some a => exists s1 x, act_allowed a s s1 x /\ bold_allowed n c (x :: tr) s1 tr' s'
           end
  end.

(** What Rust's types ensure. *)
Definition act_ok (a : act) : Prop :=
  match a with
  | Plain c => call_ok c
  | AtUShl _ n | AtUShr _ n | AtUSetBit _ n | AtUClearBit _ n | AtIShl _ n | AtIShr _ n => 0 <= n < 2 ^ ubits
  | AtUPrim _ sg tb c _ | AtIPrim _ sg tb c _ => prim_bits tb /\ prim_range sg tb c
  | _ => True
  end.
Definition bold_ok (c : bold_app) : Prop := forall tr a, c tr = Some a -> act_ok a.

(** The number that an operation in place is applied to. *)
Definition target_u (a : act) : option nat :=
  match a with
  | AtU _ _ d _ | AtUShl d _ | AtUShr d _ | AtUSetBit d _ | AtUClearBit d _ | AtUCloneFrom d _ | AtUPrim _ _ _ _ d => Some d
  | _ => None
  end.
Definition target_i (a : act) : option nat :=
  match a with
  | AtI _ _ d _ | AtIShl d _ | AtIShr d _ | AtICloneFrom d _ | AtIPrim _ _ _ _ d => Some d
  | _ => None
  end.

End Caught.
