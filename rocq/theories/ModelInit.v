(** Model of /repo/api.go:18-48: the pipeline all grammars of the process share, made
    by the first call of NLP. *)
From Verif Require Import Base.

Section Init.
  (** ling.Pipeline and its taggers, external *)
  Variable pipeline tagger : Type.
  (** What ling.DefaultNLP leaves in nlp, and whether it gave no error. *)
  Variable default_nlp : option pipeline * bool.
  (** ling.NewDictTagger and ling.NewAPITagger of the flag; [None] is an error *)
  Variable dict_tagger : option tagger.
  Variable api_tagger : string -> option tagger.
  (** AddTagger: the pipeline after it, and whether it gave no error *)
  Variable add_tagger : pipeline -> tagger -> pipeline * bool.
  (** the flag -api_tagger (api.go:14) *)
  Variable address : string.

  (** api.go:24-46, the function given to once.Do: the values nlp takes one after the
      other, and whether the function returns ([true]) or panics. Calling AddTagger on
      a nil pipeline is taken to panic. *)
  Definition initialise : list (option pipeline) * bool :=
    let n := fst default_nlp in
    if negb (snd default_nlp) then ([n], false)
    else
      match dict_tagger with
      | None => ([n], false)
      | Some t =>
          match n with
          | None => ([n], false)
          | Some p =>
              let p1 := add_tagger p t in
              if negb (snd p1) then ([n; Some (fst p1)], false)
              else if String.eqb address "" then ([n; Some (fst p1)], true)
              else
                match api_tagger address with
                | None => ([n; Some (fst p1)], false)
                | Some t1 =>
                    let p2 := add_tagger (fst p1) t1 in
                    ([n; Some (fst p1); Some (fst p2)], snd p2)
                end
          end
      end.

  (** sync.Once: nobody has called Do, somebody runs the function, Do has returned or
      panicked once (api.go:19, 23) *)
  Inductive once := Unused | Busy | Used.
  (** A goroutine: outside NLP; waiting in once.Do; running the function, with the values
      still to be given to nlp; past once.Do (api.go:47) *)
  Inductive place := Outside | Waiting | Running (rest : list (option pipeline)) | Past.
  (** What a caller of NLP sees (api.go:22-48) *)
  Inductive event :=
  | Begins (i : nat)                             (* goroutine i starts the function *)
  | Returns (i : nat) (p : option pipeline)      (* its call of NLP returns p, nil is None *)
  | Panics (i : nat).                            (* its call panics; the caller may recover *)

  Record config := mkCfg { c_once : once; c_nlp : option pipeline; c_at : list place }.
  (** Goroutine [i] comes to place [p] (api.go:22-48) *)
  Fixpoint move (l : list place) (i : nat) (p : place) : list place :=
    match l, i with
    | [], _ => []
    | _ :: l', O => p :: l'
    | x :: l', S i' => x :: move l' i' p
    end.

  (** Goroutines call NLP again and again, scheduled in any way. sync.Once: the first
      call runs the function, calls made meanwhile wait for its end, which is a panic or
      a return, and later ones pass. (api.go:22-48) *)
  Inductive step : config -> option event -> config -> Prop :=
  | s_begin n l i : nth_error l i = Some Outside ->
      step (mkCfg Unused n l) (Some (Begins i)) (mkCfg Busy n (move l i (Running (fst initialise))))
  | s_wait n l i : nth_error l i = Some Outside ->
      step (mkCfg Busy n l) None (mkCfg Busy n (move l i Waiting))
  | s_pass n l i : nth_error l i = Some Outside \/ nth_error l i = Some Waiting ->
      step (mkCfg Used n l) None (mkCfg Used n (move l i Past))
  | s_assign o n l i v rest : nth_error l i = Some (Running (v :: rest)) ->
      step (mkCfg o n l) None (mkCfg o v (move l i (Running rest)))
  | s_end o n l i : nth_error l i = Some (Running []) -> snd initialise = true ->
      step (mkCfg o n l) None (mkCfg Used n (move l i Past))
  | s_panic o n l i : nth_error l i = Some (Running []) -> snd initialise = false ->
      step (mkCfg o n l) (Some (Panics i)) (mkCfg Used n (move l i Outside))
  | s_return o n l i : nth_error l i = Some Past ->
      step (mkCfg o n l) (Some (Returns i n)) (mkCfg o n (move l i Outside)).
  (** Any number of steps (api.go:22-48) *)
  Inductive exec : config -> list event -> config -> Prop :=
  | e_nil c : exec c [] c
  | e_quiet c c1 tr c2 : step c None c1 -> exec c1 tr c2 -> exec c tr c2
  | e_event c e c1 tr c2 : step c (Some e) c1 -> exec c1 tr c2 -> exec c (e :: tr) c2.

  (** [n] goroutines before the first call: nlp is nil (api.go:18) *)
  Definition initial (n : nat) : config := mkCfg Unused None (repeat Outside n).
End Init.
Arguments Outside {pipeline}.
Arguments Waiting {pipeline}.
Arguments Running {pipeline}.
Arguments Past {pipeline}.
Arguments Begins {pipeline}.
Arguments Returns {pipeline}.
Arguments Panics {pipeline}.
Arguments mkCfg {pipeline}.
Arguments c_once {pipeline}.
Arguments c_nlp {pipeline}.
Arguments c_at {pipeline}.
Arguments move {pipeline}.
Arguments initial {pipeline}.
