(** Why a call is refused, and what the message says. *)
From Verif Require Import Base ModelTypes ModelText ModelQuote ModelEarley ModelTrees ModelApi ModelSem
  ModelLocal ModelFrames ModelContext ModelMessages SpecGrammar SpecSem SpecText.
Local Open Scope list_scope.

(** ** The parsing calls *)
Section Refused.
  Variable annotate : string -> string -> told (list token).
  Variable local_grammar : list token -> told (option grammar_rules).
  Variables ctx text : string.
  Variable starts : list string.

  Definition only_spaces (doc : list token) : Prop := Forall (fun k => tok_type k = KSpace) doc.
  (** The text without the white space around it is made into the tokens [doc]. *)
  Definition document_is (doc : list token) : Prop :=
    ~ blank text /\ exists t, trimmed text t /\ annotate ctx t = Gives doc.

  (** The reasons, each looked at when those before it do not apply. *)
  Inductive refused : message -> Prop :=
  | r_blank : blank text -> refused (Ours "text is empty")
  | r_annotate t m : ~ blank text -> trimmed text t -> annotate ctx t = Refuses m -> refused m
  | r_spaces doc : document_is doc -> only_spaces doc -> refused (Ours "no tokens")
  | r_local doc m : document_is doc -> ~ only_spaces doc -> local_grammar doc = Refuses m -> refused m
  | r_starts doc l : document_is doc -> ~ only_spaces doc -> local_grammar doc = Gives l -> starts = [] ->
      refused (Ours "no start rules").
End Refused.

(** ** Eval and Semantic *)
Definition kinds : list string := ["string"; "int"; "float"; "func"; "index"].

Section Says.
  Variable p : parse_t.
  Variable join_words : list string -> string.
  Variable float_string : bigf -> string.
  Variable json : dval -> string.
  Variable is_print_hi : rune -> bool.
  Variable call : string -> list dval -> res dval.
  Variable call_says : string -> list dval -> string.
  Variable show : argval -> string.
  Notation NL := (node_nl p join_words).
  Notation AEvs := (AEvs p join_words float_string call).
  Notation ASems := (ASems p join_words float_string json is_print_hi call).

  (** What is wrong with an argument by itself. *)
  Inductive wrong_arg : arg -> string -> Prop :=
  | wa_kind ty v : In ty kinds -> malformed (Arg ty v) ->
      wrong_arg (Arg ty v) ("arg.Value: " ++ show v ++ " is not " ++ ty)
  | wa_type ty v : ~ In ty kinds -> ty <> "context" -> wrong_arg (Arg ty v) ("arg.Type: " ++ ty ++ " invalid").

  (** $i on a node with n children *)
  Definition out_of_range (i : Z) (n : nat) : Prop := (i < 0 \/ Z.of_nat n < i)%Z.
  Definition range_text (i : Z) (n : nat) : string :=
    ("i=" ++ dec_Z i ++ " not in range [0, " ++ dec_N (N.of_nat n) ++ "]")%string.
  Definition identity_text : string := "the length of Args of nf.I should be one".

  (** [EvSays n m]: evaluating n meets an error, and the first one it meets has the message m.
      Arguments are evaluated from left to right, a function is called after its arguments. *)
  Inductive EvSays : node -> message -> Prop :=
  | es n f m : function_of n = Some f -> FEvSays n f m -> EvSays n m
  with FEvSays : node -> fmr -> message -> Prop :=
  | fes_identity n args : length args <> 1 -> FEvSays n (FMR "nf.I" args) (Ours identity_text)
  | fes_identity_arg n a m : AEvSays n a m -> FEvSays n (FMR "nf.I" [a]) m
  | fes_arg n fn l1 a l2 vs m : fn <> "nf.I" -> AEvs n l1 vs -> AEvSays n a m ->
      FEvSays n (FMR fn (l1 ++ a :: l2)) m
  | fes_call n fn args vs : fn <> "nf.I" -> AEvs n args vs -> call fn vs = Err ->
      FEvSays n (FMR fn args) (Theirs (call_says fn vs))
  with AEvSays : node -> arg -> message -> Prop :=
  | aes_wrong n a s : wrong_arg a s -> AEvSays n a (Ours s)
  | aes_range n i : out_of_range i (length (n_children n)) ->
      AEvSays n (Arg "index" (VIdx i)) (Ours (range_text i (length (n_children n))))
  | aes_func n f m : FEvSays n f m -> AEvSays n (Arg "func" (VFunc f)) m
  | aes_child n k c m : nth_error (n_children n) k = Some c -> EvSays c m ->
      AEvSays n (Arg "index" (VIdx (Z.of_nat (S k)))) m.

  (** The same for Semantic, which calls nothing. *)
  Inductive SemSays : node -> message -> Prop :=
  | ss n f m t : function_of n = Some f -> NL n = Ret t -> FSemSays n f m -> SemSays n m
  with FSemSays : node -> fmr -> message -> Prop :=
  | fss_identity n args : length args <> 1 -> FSemSays n (FMR "nf.I" args) (Ours identity_text)
  | fss_identity_arg n a m : ASemSays n a m -> FSemSays n (FMR "nf.I" [a]) m
  | fss_arg n fn l1 a l2 ss m : fn <> "nf.I" -> ASems n l1 ss -> ASemSays n a m ->
      FSemSays n (FMR fn (l1 ++ a :: l2)) m
  with ASemSays : node -> arg -> message -> Prop :=
  | ass_wrong n a s : wrong_arg a s -> ASemSays n a (Ours s)
  | ass_range n i : out_of_range i (length (n_children n)) ->
      ASemSays n (Arg "index" (VIdx i)) (Ours (range_text i (length (n_children n))))
  | ass_func n f m : FSemSays n f m -> ASemSays n (Arg "func" (VFunc f)) m
  | ass_child n k c m : nth_error (n_children n) k = Some c -> SemSays c m ->
      ASemSays n (Arg "index" (VIdx (Z.of_nat (S k)))) m.

  (** ** What a message is about: a place of the tree *)
  (** [f] is the function of a node, or one written inside of it. *)
  Inductive within : fmr -> fmr -> Prop :=
  | wi_self f : within f f
  | wi_arg fn args f h : In (Arg "func" (VFunc f)) args -> within f h -> within (FMR fn args) h.

  Inductive about (n : node) : message -> Prop :=
  | ab_range x f i : part_of n x -> function_of x = Some f -> uses f i -> out_of_range i (length (n_children x)) ->
      about n (Ours (range_text i (length (n_children x))))
  | ab_identity x f args : part_of n x -> function_of x = Some f -> within f (FMR "nf.I" args) -> length args <> 1 ->
      about n (Ours identity_text)
  | ab_wrong x f fn args a s : part_of n x -> function_of x = Some f -> within f (FMR fn args) -> In a args ->
      wrong_arg a s -> about n (Ours s)
  | ab_call x f fn args vs : part_of n x -> function_of x = Some f -> within f (FMR fn args) -> fn <> "nf.I" ->
      AEvs x args vs -> call fn vs = Err -> about n (Theirs (call_says fn vs)).
End Says.

Scheme EvSays_m := Minimality for EvSays Sort Prop
  with FEvSays_m := Minimality for FEvSays Sort Prop
  with AEvSays_m := Minimality for AEvSays Sort Prop.
Combined Scheme EvSays_mutind from EvSays_m, FEvSays_m, AEvSays_m.
Scheme SemSays_m := Minimality for SemSays Sort Prop
  with FSemSays_m := Minimality for FSemSays Sort Prop
  with ASemSays_m := Minimality for ASemSays Sort Prop.
Combined Scheme SemSays_mutind from SemSays_m, FSemSays_m, ASemSays_m.

(** Every argument carries a value of the announced kind, as in what the reader of grammars makes. *)
Inductive well_kinded : fmr -> Prop :=
| wk fn args : (forall a, In a args -> ~ malformed a) -> (forall f, In (Arg "func" (VFunc f)) args -> well_kinded f) ->
    well_kinded (FMR fn args).
