(** What the pipeline should be. *)
From Verif Require Import Base ModelInit.

Section Spec.
  Variable pipeline tagger : Type.
  Variable default_nlp : option pipeline * bool.
  Variable dict_tagger : option tagger.
  Variable api_tagger : string -> option tagger.
  Variable add_tagger : pipeline -> tagger -> pipeline * bool.
  Variable address : string.

  (** Everything went well: [p] is the default pipeline with the dictionary tagger and,
      if an address is given, the tagger at the address. *)
  Definition ready (p : pipeline) : Prop :=
    exists base dict p1, default_nlp = (Some base, true) /\ dict_tagger = Some dict /\ add_tagger base dict = (p1, true) /\
      (address = "" /\ p = p1 \/ address <> "" /\ exists t, api_tagger address = Some t /\ add_tagger p1 t = (p, true)).
  (** Something failed, and this was left in nlp. *)
  Inductive failed_with : option pipeline -> Prop :=
  | no_default n : default_nlp = (n, false) -> failed_with n
  | no_dict n : default_nlp = (n, true) -> dict_tagger = None -> failed_with n
  | nil_default t : default_nlp = (None, true) -> dict_tagger = Some t -> failed_with None
  | no_add base t p1 : default_nlp = (Some base, true) -> dict_tagger = Some t -> add_tagger base t = (p1, false) -> failed_with (Some p1)
  | no_api base t p1 : default_nlp = (Some base, true) -> dict_tagger = Some t -> add_tagger base t = (p1, true) ->
      address <> "" -> api_tagger address = None -> failed_with (Some p1)
  | no_add_api base t p1 t1 p2 : default_nlp = (Some base, true) -> dict_tagger = Some t -> add_tagger base t = (p1, true) ->
      address <> "" -> api_tagger address = Some t1 -> add_tagger p1 t1 = (p2, false) -> failed_with (Some p2).

  (** The goroutines' calls, in the order of what happens, when nothing fails. *)
  Definition good_history (p : pipeline) (tr : list (event pipeline)) : Prop :=
    tr = [] \/ exists i tr', tr = Begins i :: tr' /\ Forall (fun e => exists j, e = Returns j (Some p)) tr'.
  (** The same when something fails: the first call panics, the others return. *)
  Definition bad_history (v : option pipeline) (tr : list (event pipeline)) : Prop :=
    tr = [] \/ exists i, tr = [Begins i] \/ exists tr', tr = Begins i :: Panics i :: tr' /\ Forall (fun e => exists j, e = Returns j v) tr'.
  Definition all_outside (c : config pipeline) : Prop := Forall (fun p => p = Outside) (c_at c).
End Spec.
