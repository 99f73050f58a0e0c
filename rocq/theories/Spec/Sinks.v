(** Writing text into sinks that may report errors.  A sink is any state machine:
    [put s p] is how it responds to the call [p] in the state [s]; [false] means that
    it reports an error.  Independent of the model except for the types of calls and
    results. *)
From Coq Require Import ZArith List.
From Verif Require Import Model.Base Model.Sink.
Import ListNotations.
Open Scope Z_scope.

(** The text of some calls. *)
Definition piece_text (p : piece) : list Z := match p with PStr s => s | PChar c => [c] end.
Definition text_of (ps : list piece) : list Z := concat (map piece_text ps).

(** Making calls one after the other until one of them fails. *)
Fixpoint feed {W P : Type} (put : W -> P -> W * bool) (s : W) (ps : list P) : W * bool :=
  match ps with
  | [] => (s, true)
  | p :: ps =>
      let (s', ok) := put s p in
      if ok then feed put s' ps else (s', false)
  end.

(** ASCII strings are valid UTF-8. *)
Definition ascii (c : Z) : Prop := 0 <= c < 128.
Definition strings_ascii (ps : list piece) : Prop :=
  forall s, In (PStr s) ps -> Forall ascii s.

(** [m], a function that writes into a sink, writes the text [t]: there are calls,
    the same for all sinks, which together make up the text; [m] makes them one after
    the other, stops at the first that fails, and reports that failure.  All
    strings among them are ASCII. *)
Definition delivers (m : forall W : Type, (W -> piece -> W * bool) -> W -> Base.res (wres W W)) (t : list Z) : Prop :=
  exists ps, text_of ps = t /\ strings_ascii ps /\
    forall W (put : W -> piece -> W * bool) (s : W),
      m W put s = Base.Ok (let (s', ok) := feed put s ps in if ok then Done s' else Failed s').

(** A sink that keeps what it has accepted: [view s] is the text it holds.  A call
    that succeeds adds all of its text; one that fails may have added a part of it. *)
Definition keeps {W : Type} (put : W -> piece -> W * bool) (view : W -> list Z) : Prop :=
  forall s p s' ok, put s p = (s', ok) ->
    exists a b, piece_text p = a ++ b /\ view s' = view s ++ a /\ (ok = true -> b = []).
