(** Formulas, how they are written, and the formula of a node of a parse tree. *)
From Coq Require Import Ascii.
From Verif Require Import Base ModelTypes ModelText ModelEarley ModelTrees ModelApi ModelQuote ModelSem SpecGrammar SpecSem.
Local Open Scope list_scope.

Inductive formula :=
| F_text (s : string)
| F_number (s : string)
| F_json (s : string)
| F_call (name : string) (args : list formula).

(** Bytes that neither names nor numbers contain. *)
Definition special (c : ascii) : Prop := In c ["("; ")"; ","; "034"; "{"]%char.
Definition plain_text (s : string) : Prop := forall c, In c (list_ascii_of_string s) -> ~ special c.

Section Formula.
  Variable is_print_hi : rune -> bool.
  Variable json : dval -> string.

  (** How a formula is written. *)
  Fixpoint formula_text (f : formula) : string :=
    match f with
    | F_text s => quote is_print_hi s
    | F_number s => s
    | F_json s => s
    | F_call name args => name ++ "(" ++ join ", " (map formula_text args) ++ ")"
    end.

  (** Formulas with ordinary names and numbers. *)
  Inductive plain : formula -> Prop :=
  | p_text s : plain (F_text s)
  | p_number s : s <> ""%string -> plain_text s -> plain (F_number s)
  | p_json v : plain (F_json (json v))
  | p_call name args : plain_text name -> Forall plain args -> plain (F_call name args).

  (** The texts of JSON objects: they begin with a brace, and none is the beginning of another. *)
  Definition json_objects : Prop :=
    (forall v, exists r, json v = ("{" ++ r)%string) /\
    (forall v w a b, (json v ++ a = json w ++ b)%string -> json v = json w /\ a = b).

  Variable p : parse_t.
  Variable join_words : list string -> string.
  Variable float_string : bigf -> string.
  Variable call : string -> list dval -> res dval.
  Notation NL := (node_nl p join_words).

  (** [node_formula n g]: g is the formula of the node n. *)
  Inductive node_formula : node -> formula -> Prop :=
  | nf_plain n t : function_of n = None -> NL n = Ret t -> node_formula n (F_text t)
  | nf_fun n f t g : function_of n = Some f -> NL n = Ret t -> fun_formula n f g -> node_formula n g
  with fun_formula : node -> fmr -> formula -> Prop :=
  | ff_identity n a g : arg_formula n a g -> fun_formula n (FMR "nf.I" [a]) g
  | ff_call n fn args gs : fn <> "nf.I"%string -> arg_formulas n args gs -> fun_formula n (FMR fn args) (F_call fn gs)
  with arg_formulas : node -> list arg -> list formula -> Prop :=
  | afs_nil n : arg_formulas n [] []
  | afs_cons n a args g gs : arg_formula n a g -> arg_formulas n args gs -> arg_formulas n (a :: args) (g :: gs)
  with arg_formula : node -> arg -> formula -> Prop :=
  | af_string n s : arg_formula n (Arg "string" (VStr s)) (F_text s)
  | af_int n z : arg_formula n (Arg "int" (VInt z)) (F_number (dec_Z z))
  | af_float n x : arg_formula n (Arg "float" (VFloat x)) (F_number (float_string x))
  | af_func n f g : fun_formula n f g -> arg_formula n (Arg "func" (VFunc f)) g
  | af_zero n t : NL n = Ret t -> arg_formula n (Arg "index" (VIdx 0)) (F_text t)
  | af_child n k c g : nth_error (n_children n) k = Some c -> node_formula c g ->
      arg_formula n (Arg "index" (VIdx (Z.of_nat (S k)))) g
  | af_context n v c :
      context_value p n (n_children n) (map (eval p join_words float_string call) (n_children n)) = Ret c ->
      arg_formula n (Arg "context" v) (F_json (json c)).
End Formula.

Scheme node_formula_m := Minimality for node_formula Sort Prop
  with fun_formula_m := Minimality for fun_formula Sort Prop
  with arg_formulas_m := Minimality for arg_formulas Sort Prop
  with arg_formula_m := Minimality for arg_formula Sort Prop.
Combined Scheme formula_mutind from node_formula_m, fun_formula_m, arg_formulas_m, arg_formula_m.

(** The names of the functions and the constants that occur in a function. *)
Inductive fun_name : fmr -> string -> Prop :=
| fn_here fn args : fun_name (FMR fn args) fn
| fn_inside fn args f x : In (Arg "func" (VFunc f)) args -> fun_name f x -> fun_name (FMR fn args) x.
Inductive fun_constant : fmr -> argval -> Prop :=
| fc_here fn args ty v : In (Arg ty v) args -> fun_constant (FMR fn args) v
| fc_inside fn args f v : In (Arg "func" (VFunc f)) args -> fun_constant f v -> fun_constant (FMR fn args) v.

(** Everything in the formula comes from these places: function names from [names],
    numbers from [numbers], texts from [texts], JSON texts from [objects]. *)
Inductive made_of (names numbers texts objects : string -> Prop) : formula -> Prop :=
| mo_text s : texts s -> made_of names numbers texts objects (F_text s)
| mo_number s : numbers s -> made_of names numbers texts objects (F_number s)
| mo_json s : objects s -> made_of names numbers texts objects (F_json s)
| mo_call x args : names x -> Forall (made_of names numbers texts objects) args -> made_of names numbers texts objects (F_call x args).

(** Functions of the grammars. *)
Definition has_function (gs : list grammar_rules) (f : fmr) : Prop := exists x b, has_body gs x b /\ rb_f b = Some f.
Definition grammar_name (gs : list grammar_rules) (x : string) : Prop :=
  x = "fmr.list"%string \/ exists f, has_function gs f /\ fun_name f x.
Definition grammar_constant (gs : list grammar_rules) (v : argval) : Prop := exists f, has_function gs f /\ fun_constant f v.
(** The numbers of the functions, as they are written. *)
Definition grammar_number (gs : list grammar_rules) (float_string : bigf -> string) (s : string) : Prop :=
  (exists z, grammar_constant gs (VInt z) /\ s = dec_Z z) \/ (exists x, grammar_constant gs (VFloat x) /\ s = float_string x).
(** Some words of the text that follow each other, joined. *)
Definition words (join_words : list string -> string) (toks : list token) (s : string) : Prop :=
  exists i k, s = join_words (map tok_text (firstn k (skipn i toks))).
(** The names of all functions are plain. *)
Definition plain_functions (gs : list grammar_rules) : Prop := forall f x, has_function gs f -> fun_name f x -> plain_text x.

(** ** String literals of JavaScript (ECMAScript 5.1, 7.8.4)
    The example programs hand formulas to a JavaScript interpreter
    (examples/math/main.go:100, examples/builtin/main.go:93, examples/arithmetic/main.go:76).
    Octal escapes and line continuations, which Quote never writes, are left out. *)

(** The UTF-16 code units of a character. *)
Definition utf16 (r : rune) : list Z :=
  (if r <? 65536 then [r] else [55296 + (r - 65536) / 1024; 56320 + (r - 65536) mod 1024])%Z.
Inductive hex_value : rune -> Z -> Prop :=
| hv_digit c : (48 <= c <= 57)%Z -> hex_value c (c - 48)%Z
| hv_lower c : (97 <= c <= 102)%Z -> hex_value c (c - 87)%Z
| hv_upper c : (65 <= c <= 70)%Z -> hex_value c (c - 55)%Z.
Definition line_end (c : rune) : Prop := In c [10; 13; 8232; 8233]%Z.
(** Escapes of one character: b t n v f r and the three signs that stand for themselves *)
Definition js_escapes : list (rune * Z) :=
  [(98, 8); (116, 9); (110, 10); (118, 11); (102, 12); (114, 13); (34, 34); (39, 39); (92, 92)]%Z.
(** [js_chars w u]: between double quotes the characters w stand for the string with the code units u. *)
Inductive js_chars : list rune -> list Z -> Prop :=
| js_nil : js_chars [] []
| js_plain c w u : c <> 34%Z -> c <> 92%Z -> ~ line_end c -> js_chars w u -> js_chars (c :: w) (utf16 c ++ u)
| js_escape c v w u : In (c, v) js_escapes -> js_chars w u -> js_chars (92%Z :: c :: w) (v :: u)
| js_hex a b va vb w u : hex_value a va -> hex_value b vb -> js_chars w u ->
    js_chars (92%Z :: 120%Z :: a :: b :: w) ((va * 16 + vb)%Z :: u)
| js_unicode a b c d va vb vc vd w u : hex_value a va -> hex_value b vb -> hex_value c vc -> hex_value d vd -> js_chars w u ->
    js_chars (92%Z :: 117%Z :: a :: b :: c :: d :: w) ((((va * 16 + vb) * 16 + vc) * 16 + vd)%Z :: u)
| js_other c w u : ~ In c (map fst js_escapes) -> c <> 120%Z -> c <> 117%Z -> ~ (48 <= c <= 57)%Z -> ~ line_end c ->
    js_chars w u -> js_chars (92%Z :: c :: w) (utf16 c ++ u).
(** [js_literal s u]: the text s, in UTF-8, is a string literal for the string u. *)
Definition js_literal (s : string) (u : list Z) : Prop :=
  exists w, s = encode ([34]%Z ++ w ++ [34]%Z) /\ Forall (fun c => valid_rune c = true) w /\ js_chars w u.
