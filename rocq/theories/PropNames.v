(** C61: the names made up for terminal texts. *)
From Verif Require Import Base ModelTypes ModelText ModelEarley ModelReader ModelGrammar
  SpecTypes SpecGrammar SpecNotation SpecRefine SpecConstruct SpecSem SpecEnd ModelShipped SpecShipped SpecNames ProofNames
  Examples ExamplesGrammar ExamplesShipped ExamplesNames.
Local Open Scope list_scope.

(** Every terminal text of a file has the first of the names g_t_..., g_t_..._0, g_t_..._1
    that is neither a rule of the file nor the name of another text. *)
Theorem C61_generated_names : forall e, env_ok e -> forall fuel depth file gt g w', from_file e fuel depth file gt = Ret (Some g, w') ->
  exists text, e_read e file = Ret text /\ exists L, e_parts e text g L /\ map rd_after L = all_rules g /\
  forall p, In p L -> forall v x, In (v, x) (rd_table p) ->
    lookup (rd_before p) x = None /\
    exists ks k, e_tokenize e v = Ret ks /\ x = numbered (usual_name (e_ascii e) ks) k /\
      forall j, j < k -> lookup (rd_before p) (numbered (usual_name (e_ascii e) ks) j) <> None \/
        exists v', v' <> v /\ In (v', numbered (usual_name (e_ascii e) ks) j) (rd_table p).
Proof. exact names_of_files. Qed.
Print Assumptions C61_generated_names.

(** math.en.grammar includes number.en.grammar. *)
Example C61_generated_names_example : env_ok (senv dir_math) /\
  from_file (senv dir_math) 4000 9 (e_join (senv dir_math) "d" "math.en.grammar") [] = Ret (Some ma_grammar, ma_world) /\
  map (fun m => (length m, firstn 6 (skipn 3 (map fst m)))) (all_rules ma_grammar) =
    [(35, ["g_t_plus"; "g_t_added_to"; "g_t_sum_of"; "g_t_and"; "g_t_the_sum_of"; "g_t_minus"]);
     (54, ["tens"; "e1"; "e2"; "e3"; "e6"; "e9"])]%string.
Proof. split; [apply senv_ok|]. split; [exact ma_load|]. vm_compute. reflexivity. Qed.

(** When the usual names of the texts of the files are apart, every text has its usual
    name, whatever the order of maps, and no two files are in each other's way. *)
Theorem C61_usual_names : forall e d g L, e_parts e d g L ->
  names_apart (e_tokenize e) (e_ascii e) (terminal_text (map rd_before L)) (rule_name (map rd_before L)) ->
  compatible L /\ forall p v x, In p L -> In (v, x) (rd_table p) -> exists ks, e_tokenize e v = Ret ks /\ x = usual_name (e_ascii e) ks.
Proof. exact apart_names. Qed.
Print Assumptions C61_usual_names.

(** The language of several files, without a hypothesis on the result of the reader *)
Theorem C61_language : forall e d g L tmatch toks x i j, e_parts e d g L ->
  names_apart (e_tokenize e) (e_ascii e) (terminal_text (map rd_before L)) (rule_name (map rd_before L)) ->
  uniform_flags (map rd_before L) -> no_dangling "g_t" (map rd_before L) -> (exists m, In m (map rd_before L) /\ lookup m x <> None) ->
  (Derives tmatch (all_rules g) toks (nonterm x) i j <->
   DerivesSplit (e_tokenize e) tmatch (map rd_before L) toks (nonterm x) i j).
Proof. exact apart_language. Qed.
Print Assumptions C61_language.

Example C61_example : exists L, e_parts (senv dir_math) math_math_en ma_grammar L /\
  names_apart xtokenize (fun s => s) (terminal_text (map rd_before L)) (rule_name (map rd_before L)) /\
  uniform_flags (map rd_before L) /\ no_dangling "g_t" (map rd_before L) /\
  (exists m, In m (map rd_before L) /\ lookup m "number"%string <> None) /\
  2 <= length L.
Proof. exact math_en_example. Qed.

(** The rules of a loaded grammar are the alternatives written in the file and the files it
    reaches; an alternative is there if no other of its rule has the same hash. *)
Theorem C61_rules_of_files : forall e, env_ok e -> forall file dir T fuel depth gt g w', e_read e file = Ret T -> e_abs e file = Ret dir ->
  from_file e fuel depth file gt = Ret (Some g, w') -> forall L, e_parts e T g L ->
  (forall x b, has_body (map rd_before L) x b -> exists text, file_among e T dir text /\ alternative_in e text x b) /\
  (forall text x b, file_among e T dir text -> alternative_in e text x b ->
     (forall b', alternative_in e text x b' -> e_hash e b' = e_hash e b -> b' = b) -> has_body (map rd_before L) x b).
Proof. exact files_rules. Qed.
Print Assumptions C61_rules_of_files.

(** The grammars of the repository with their includes meet what parsing asks of them when
    the names of their terminal texts are apart. *)
Theorem C61_shipped : forall e, env_ok e -> fractions_scan e -> e_regexp_ok e sf_pattern = true -> texts_have_tokens e ->
  String.prefix "g_t" (e_md5 e sf_pattern) = false ->
  forall l dir, In l shipped -> installed e dir l ->
  forall name text, In (name, text) l -> name <> rejected -> spelled_apart (e_tokenize e) (e_ascii e) (shipped_text e l name) ->
  forall fuel depth gt g w', from_file e fuel depth (e_join e dir name) gt = Ret (Some g, w') ->
  exists L, e_parts e text g L /\ map rd_after L = all_rules g /\ compatible L /\
    (name <> "sf.grammar"%string -> functions_fit (map rd_before L)) /\
    (forall starts, starts <> [] ->
       (forall S, In S starts -> S <> GammaRule /\ String.prefix "g_t" S = false) -> usable (e_tokenize e) L starts) /\
    names_apart (e_tokenize e) (e_ascii e) (terminal_text (map rd_before L)) (rule_name (map rd_before L)).
Proof. exact shipped_apart. Qed.
Print Assumptions C61_shipped.

Example C61_shipped_example : spelled_apart xtokenize (fun s => s) (shipped_text (senv dir_math) dir_math "math.en.grammar") /\
  shipped_text (senv dir_math) dir_math "math.en.grammar" "raised to the power of"%string /\ installed (senv dir_math) "d" dir_math.
Proof. split; [exact math_en_apart|]. split; [exact power_text|]. apply senv_installed. unfold shipped. do 4 right. left. reflexivity. Qed.

(** Otherwise the name of a text depends on the order of maps: <a> = "foo bar"; <b> = "foo-bar"; *)
Theorem C61_order_refuted : is_rule_order keep /\ is_rule_order backwards /\
  seen (from_string (xenv [] keep) 200 9 text_twice "n" []) = Some
    ([("a", [([("g_t_foo_bar", TNonterminal, MNil)], None)]);
      ("b", [([("g_t_foo_bar_0", TNonterminal, MNil)], None)]);
      ("g_t_foo_bar", [([("foo", TTerminal, MNil); ("bar", TTerminal, MNil)], None)]);
      ("g_t_foo_bar_0", [([("foo", TTerminal, MNil); ("-", TTerminal, MNil); ("bar", TTerminal, MNil)], None)])], [], [])%string /\
  seen (from_string (xenv [] backwards) 200 9 text_twice "n" []) = Some
    ([("b", [([("g_t_foo_bar", TNonterminal, MNil)], None)]);
      ("a", [([("g_t_foo_bar_0", TNonterminal, MNil)], None)]);
      ("g_t_foo_bar", [([("foo", TTerminal, MNil); ("-", TTerminal, MNil); ("bar", TTerminal, MNil)], None)]);
      ("g_t_foo_bar_0", [([("foo", TTerminal, MNil); ("bar", TTerminal, MNil)], None)])], [], [])%string.
Proof. exact (conj keep_ok (conj backwards_ok names_by_order)). Qed.
Print Assumptions C61_order_refuted.
