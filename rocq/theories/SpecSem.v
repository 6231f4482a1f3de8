(** The meaning of parse trees, clause by clause, as relations. *)
From Verif Require Import Base ModelTypes ModelText ModelEarley ModelTrees ModelApi ModelQuote ModelSem SpecGrammar.

(** The nodes of a tree. *)
Inductive part_of : node -> node -> Prop :=
| po_self n : part_of n n
| po_kid v ch c m : In c ch -> part_of c m -> part_of (Node v ch) m.

(** The function attached to a node: that of its rule body. *)
Definition function_of (n : node) : option fmr :=
  match s_rb (n_value n) with Some b => rb_f b | None => None end.

(** [k] is used by [f]: it occurs as $k in f or a nested function. *)
Inductive uses : fmr -> Z -> Prop :=
| u_index fn args k : In (Arg "index" (VIdx k)) args -> uses (FMR fn args) k
| u_func fn args f k : In (Arg "func" (VFunc f)) args -> uses f k -> uses (FMR fn args) k.

(** No @ argument occurs in [f]. *)
Inductive no_context : fmr -> Prop :=
| nc fn args : Forall no_context_arg args -> no_context (FMR fn args)
with no_context_arg : arg -> Prop :=
| nca ty v : ty <> "context" -> (forall f, ty = "func" -> v = VFunc f -> no_context f) -> no_context_arg (Arg ty v).

(** An argument whose tag is unknown or does not fit its value. *)
Definition malformed (a : arg) : Prop :=
  match a with
  | Arg ty v =>
      ty <> "context" /\
      (ty = "string" -> forall s, v <> VStr s) /\ (ty = "int" -> forall z, v <> VInt z) /\
      (ty = "float" -> forall x, v <> VFloat x) /\ (ty = "func" -> forall f, v <> VFunc f) /\
      (ty = "index" -> forall i, v <> VIdx i)
  end.

Section Meaning.
  Variable p : parse_t.
  Variable join_words : list string -> string.
  Variable float_string : bigf -> string.
  Variable json : dval -> string.
  Variable is_print_hi : rune -> bool.
  Variable call : string -> list dval -> res dval.

  Notation NL := (node_nl p join_words).
  Notation Q := (quote is_print_hi).

  (** [Sem n s]: the semantics of node n is the text s. *)
  Inductive Sem : node -> string -> Prop :=
  | Sem_plain n t : function_of n = None -> NL n = Ret t -> Sem n (Q t)
  | Sem_fun n f t s : function_of n = Some f -> NL n = Ret t -> FSem n f s -> Sem n s
  with FSem : node -> fmr -> string -> Prop :=
  | FS_identity n a s : ASem n a s -> FSem n (FMR "nf.I" [a]) s
  | FS_call n fn args ss : fn <> "nf.I" -> ASems n args ss ->
      FSem n (FMR fn args) (fn ++ "(" ++ join ", " ss ++ ")")%string
  with ASems : node -> list arg -> list string -> Prop :=
  | AS_nil n : ASems n [] []
  | AS_cons n a args s ss : ASem n a s -> ASems n args ss -> ASems n (a :: args) (s :: ss)
  with ASem : node -> arg -> string -> Prop :=
  | AS_string n s : ASem n (Arg "string" (VStr s)) (Q s)
  | AS_int n z : ASem n (Arg "int" (VInt z)) (dec_Z z)
  | AS_float n x : ASem n (Arg "float" (VFloat x)) (float_string x)
  | AS_func n f s : FSem n f s -> ASem n (Arg "func" (VFunc f)) s
  | AS_zero n t : NL n = Ret t -> ASem n (Arg "index" (VIdx 0)) (Q t)
  | AS_child n k c s : nth_error (n_children n) k = Some c -> Sem c s ->
      ASem n (Arg "index" (VIdx (Z.of_nat (S k)))) s
  | AS_context n v c :
      context_value p n (n_children n) (map (eval p join_words float_string call) (n_children n)) = Ret c ->
      ASem n (Arg "context" v) (json c).

  (** [SemBad n]: an index is out of range or an argument is malformed in the
      used part of the tree. *)
  Inductive SemBad : node -> Prop :=
  | sb n f : function_of n = Some f -> FBad n f -> SemBad n
  with FBad : node -> fmr -> Prop :=
  | fb_identity n args : length args <> 1 -> FBad n (FMR "nf.I" args)
  | fb_arg n fn args a : In a args -> ABad n a -> FBad n (FMR fn args)
  with ABad : node -> arg -> Prop :=
  | ab_malformed n a : malformed a -> ABad n a
  | ab_index n i : (i < 0 \/ Z.of_nat (length (n_children n)) < i)%Z -> ABad n (Arg "index" (VIdx i))
  | ab_func n f : FBad n f -> ABad n (Arg "func" (VFunc f))
  | ab_child n k c : nth_error (n_children n) k = Some c -> SemBad c ->
      ABad n (Arg "index" (VIdx (Z.of_nat (S k)))).

  (** [Ev n v]: the value of node n is v. *)
  Inductive Ev : node -> dval -> Prop :=
  | Ev_plain n t : function_of n = None -> original_text p n = Ret t -> Ev n (DStr t)
  | Ev_fun n f v : function_of n = Some f -> FEv n f v -> Ev n v
  with FEv : node -> fmr -> dval -> Prop :=
  | FE_identity n a v : AEv n a v -> FEv n (FMR "nf.I" [a]) v
  | FE_call n fn args vs v : fn <> "nf.I" -> AEvs n args vs -> call fn vs = Ret v -> FEv n (FMR fn args) v
  with AEvs : node -> list arg -> list dval -> Prop :=
  | AE_nil n : AEvs n [] []
  | AE_cons n a args v vs : AEv n a v -> AEvs n args vs -> AEvs n (a :: args) (v :: vs)
  with AEv : node -> arg -> dval -> Prop :=
  | AE_string n s : AEv n (Arg "string" (VStr s)) (DStr s)
  | AE_int n z : AEv n (Arg "int" (VInt z)) (DStr (dec_Z z))
  | AE_float n x : AEv n (Arg "float" (VFloat x)) (DStr (float_string x))
  | AE_func n f v : FEv n f v -> AEv n (Arg "func" (VFunc f)) v
  | AE_zero n t : NL n = Ret t -> AEv n (Arg "index" (VIdx 0)) (DStr t)
  | AE_child n k c v : nth_error (n_children n) k = Some c -> Ev c v ->
      AEv n (Arg "index" (VIdx (Z.of_nat (S k)))) v
  | AE_context n u c :
      context_value p n (n_children n) (map (eval p join_words float_string call) (n_children n)) = Ret c ->
      AEv n (Arg "context" u) c.

  (** [EvBad n]: some used argument is malformed or out of range, or a function
      called with the values of its arguments fails. *)
  Inductive EvBad : node -> Prop :=
  | eb n f : function_of n = Some f -> FEvBad n f -> EvBad n
  with FEvBad : node -> fmr -> Prop :=
  | feb_identity n args : length args <> 1 -> FEvBad n (FMR "nf.I" args)
  | feb_arg n fn args a : In a args -> AEvBad n a -> FEvBad n (FMR fn args)
  | feb_call n fn args vs : fn <> "nf.I" -> AEvs n args vs -> call fn vs = Err -> FEvBad n (FMR fn args)
  with AEvBad : node -> arg -> Prop :=
  | aeb_malformed n a : malformed a -> AEvBad n a
  | aeb_index n i : (i < 0 \/ Z.of_nat (length (n_children n)) < i)%Z -> AEvBad n (Arg "index" (VIdx i))
  | aeb_func n f : FEvBad n f -> AEvBad n (Arg "func" (VFunc f))
  | aeb_child n k c : nth_error (n_children n) k = Some c -> EvBad c ->
      AEvBad n (Arg "index" (VIdx (Z.of_nat (S k)))).
End Meaning.

Scheme Sem_m := Minimality for Sem Sort Prop
  with FSem_m := Minimality for FSem Sort Prop
  with ASems_m := Minimality for ASems Sort Prop
  with ASem_m := Minimality for ASem Sort Prop.
Combined Scheme Sem_mutind from Sem_m, FSem_m, ASems_m, ASem_m.
Scheme SemBad_m := Minimality for SemBad Sort Prop
  with FBad_m := Minimality for FBad Sort Prop
  with ABad_m := Minimality for ABad Sort Prop.
Combined Scheme SemBad_mutind from SemBad_m, FBad_m, ABad_m.
Scheme Ev_m := Minimality for Ev Sort Prop
  with FEv_m := Minimality for FEv Sort Prop
  with AEvs_m := Minimality for AEvs Sort Prop
  with AEv_m := Minimality for AEv Sort Prop.
Combined Scheme Ev_mutind from Ev_m, FEv_m, AEvs_m, AEv_m.
Scheme EvBad_m := Minimality for EvBad Sort Prop
  with FEvBad_m := Minimality for FEvBad Sort Prop
  with AEvBad_m := Minimality for AEvBad Sort Prop.
Combined Scheme EvBad_mutind from EvBad_m, FEvBad_m, AEvBad_m.

(** Functions that cannot fail on a node with [n] children: nf.I has one
    argument, indices are at most n, arguments carry the announced kind of value
    and there is no @. *)
Inductive fun_ok (n : nat) : fmr -> Prop :=
| fo fn args : (fn = "nf.I" -> length args = 1) -> Forall (arg_ok n) args -> fun_ok n (FMR fn args)
with arg_ok (n : nat) : arg -> Prop :=
| ao_string s : arg_ok n (Arg "string" (VStr s))
| ao_int z : arg_ok n (Arg "int" (VInt z))
| ao_float x : arg_ok n (Arg "float" (VFloat x))
| ao_index i : (0 <= i <= Z.of_nat n)%Z -> arg_ok n (Arg "index" (VIdx i))
| ao_func f : fun_ok n f -> arg_ok n (Arg "func" (VFunc f)).

(** Tokens in text order: no token ends before an earlier one starts. *)
Definition in_order (toks : list token) : Prop :=
  forall i j a b, i <= j -> nth_error toks i = Some a -> nth_error toks j = Some b -> tok_start a <= tok_end b.
(** All tokens lie in [text]. *)
Definition inside (text : string) (toks : list token) : Prop :=
  forall k, In k toks -> tok_end k <= String.length text.
(** The first rune of the text is not white space. *)
Definition no_leading_space (text : string) : Prop := is_space (fst (decode_rune text)) = false.

(** [t] is one of the trees the parse gives. *)
Definition tree_of_parse (p : parse_t) (t : node) : Prop :=
  exists ref fuel outs, In ref (p_finals p) /\ get_trees (p_columns p) fuel ref = Ret outs /\ In t outs.

(** Every function of the grammars fits its rule body. *)
Definition functions_fit (gs : list grammar_rules) : Prop :=
  forall x b f, has_body gs x b -> rb_f b = Some f -> fun_ok (length (rb_terms b)) f.
(** No function of the grammars has an @ argument. *)
Definition no_contexts (gs : list grammar_rules) : Prop :=
  forall x b f, has_body gs x b -> rb_f b = Some f -> no_context f.
