(** C26: refinement introduces fresh names only. C27: refinement keeps the
    language. C28: #include directives. *)
From Coq Require Import Ascii.
From Verif Require Import Base ModelTypes ModelText ModelEarley ModelMatch ModelReader ModelGrammar
  SpecGrammar SpecNotation SpecRefine SpecConstruct ProofConstruct Examples ExamplesGrammar ProofConstructRefute.

(** ** C26 *)
(** [L] pairs the rules written in the text, and in each included text, with the rules the
    grammar ends up with; [refined_by] says what may have changed. *)
Theorem C26_fresh_names : forall e, env_ok e -> forall fuel depth d name gt g w',
  from_string e fuel depth d name gt = Ret (Some g, w') ->
  (exists L, e_parts e d g L /\ map rd_after L = all_rules g) /\
  forall L, e_parts e d g L -> forall p, In p L ->
    refined_by (e_tokenize e) (e_hash e) (rd_table p) (rd_before p) (rd_after p).
Proof. exact env_fresh. Qed.
Print Assumptions C26_fresh_names.

(** <g_t_x> = <y>; <a> = "x"; <b> = "x" | " "; *)
Example C26_example :
  env_ok (xenv [] keep) /\
  seen (from_string (xenv [] keep) 200 9 text_taken "n" []) = Some
    ([("g_t_x", [([("y", TNonterminal, MNil)], None)]);
      ("a", [([("g_t_x_0", TNonterminal, MNil)], None)]);
      ("b", [([("g_t_x_0", TNonterminal, MNil)], None); ([("g_t", TNonterminal, MNil)], None)]);
      ("g_t_x_0", [([("x", TTerminal, MNil)], None)]);
      ("g_t", [([], None)])], [], [])%string.
Proof. split; [apply xenv_ok, keep_ok|vm_compute; reflexivity]. Qed.

(** ** C27 *)
(** For a text and its includes. [compatible] concerns the names generated for different
    files; a single file always satisfies it (next theorem). *)
Theorem C27_language : forall e d g L tmatch toks x i j,
  e_parts e d g L -> compatible L -> uniform_flags (map rd_before L) ->
  no_dangling "g_t" (map rd_before L) -> (exists m, In m (map rd_before L) /\ lookup m x <> None) ->
  (Derives tmatch (all_rules g) toks (nonterm x) i j <->
   DerivesSplit (e_tokenize e) tmatch (map rd_before L) toks (nonterm x) i j).
Proof. exact env_language. Qed.
Print Assumptions C27_language.

Theorem C27_single_file : forall e d g L, e_parts e d g L -> g_includes g = [] -> compatible L.
Proof. exact env_single. Qed.
Print Assumptions C27_single_file.

Example C27_example : exists g w L,
  from_string (xenv [] keep) 200 1 text_small "n" [] = Ret (Some g, w) /\
  e_parts (xenv [] keep) text_small g L /\ compatible L /\ uniform_flags (map rd_before L) /\
  no_dangling "g_t" (map rd_before L) /\ (exists m, In m (map rd_before L) /\ lookup m "a"%string <> None) /\
  Derives xmatch (all_rules g) (xwords 0 ["x"; "y"; "z"]%string) (nonterm "a") 0 3.
Proof. exact small_parts. Qed.

(** <a> = "(?i)x"; <b> = "x"; read twice: whether <b> matches X depends on the order in
    which the map of rules is visited. *)
Theorem C27_flags_refuted :
  let r := from_string (xenv [] keep) 200 9 text_flags "n" [] in
  let r' := from_string (xenv [] backwards) 200 9 text_flags "n" [] in
  let tm r := terminal_match (lookup (tokens_of r)) (fun s => s) in
  (exists g w g' w', r = Ret (Some g, w) /\ r' = Ret (Some g', w')) /\
  Derives (tm r) (rules_of r) [tok_X] (nonterm "b") 0 1 /\
  ~ Derives (tm r') (rules_of r') [tok_X] (nonterm "b") 0 1.
Proof. exact flags_by_order. Qed.
Print Assumptions C27_flags_refuted.

(** <a> = "foo bar"; does not match foo - bar, but with an included file that only has
    <c> = "foo - bar"; it does. *)
Theorem C27_included_names_refuted :
  let r := from_string (xenv [] keep) 200 9 text_foobar "n" [] in
  let r' := from_string (xenv file_foobar keep) 200 9 text_foobar_include "n" [] in
  let tm r := terminal_match (lookup (tokens_of r)) (fun s => s) in
  let toks := xwords 0 ["foo"; "-"; "bar"]%string in
  (exists g w g' w', r = Ret (Some g, w) /\ r' = Ret (Some g', w')) /\
  ~ Derives (tm r) (rules_of r) toks (nonterm "a") 0 3 /\
  Derives (tm r') (rules_of r') toks (nonterm "a") 0 3.
Proof. exact names_collide. Qed.
Print Assumptions C27_included_names_refuted.

(** <a> = <g_t_foo>; matches nothing, but with the rule <b> = "foo"; it matches foo. *)
Theorem C27_dangling_refuted :
  let r := from_string (xenv [] keep) 200 9 text_dangling "n" [] in
  let r' := from_string (xenv [] keep) 200 9 text_dangling_more "n" [] in
  let tm r := terminal_match (lookup (tokens_of r)) (fun s => s) in
  let toks := xwords 0 ["foo"]%string in
  (exists g w g' w', r = Ret (Some g, w) /\ r' = Ret (Some g', w')) /\
  ~ Derives (tm r) (rules_of r) toks (nonterm "a") 0 1 /\
  Derives (tm r') (rules_of r') toks (nonterm "a") 0 1.
Proof. exact dangling_captured. Qed.
Print Assumptions C27_dangling_refuted.

(** ** C28 *)
Theorem C28_string_terminates : forall e, env_ok e -> forall files d name gt,
  (forall f b, e_read e f = Ret b -> In f files /\ clean b) -> clean d ->
  exists r n, r <> Fuel /\ forall fuel depth, n <= fuel -> n <= depth -> from_string e fuel depth d name gt = r.
Proof. exact env_stops. Qed.
Print Assumptions C28_string_terminates.

Theorem C28_file_terminates : forall e, env_ok e -> forall files file gt,
  (forall f b, e_read e f = Ret b -> In f files /\ clean b) ->
  exists r n, r <> Fuel /\ forall fuel depth, n <= fuel -> n <= depth -> from_file e fuel depth file gt = r.
Proof. exact env_file_stops. Qed.
Print Assumptions C28_file_terminates.

(** The included grammars are exactly the files reached, each once, and each holds the
    rules of its file; all of them are searched by a parse ([all_rules]). *)
Theorem C28_string_includes : forall e, env_ok e -> forall fuel depth d name gt og w',
  from_string e fuel depth d name gt = Ret (og, w') ->
  exists g, og = Some g /\ g_name g = name /\ NoDup (map g_name (g_includes g)) /\
    (forall f, In f (map g_name (g_includes g)) <-> e_reached e d "." f) /\
    e_holds e d g /\
    (forall ig, In ig (g_includes g) -> exists b, e_read e (g_name ig) = Ret b /\ e_holds e b ig).
Proof. exact env_string_files. Qed.
Print Assumptions C28_string_includes.

Theorem C28_file_includes : forall e, env_ok e -> forall fuel depth file gt og w',
  from_file e fuel depth file gt = Ret (og, w') ->
  exists g b dir, og = Some g /\ e_read e file = Ret b /\ e_abs e file = Ret dir /\
    g_name g = file /\ NoDup (map g_name (g_includes g)) /\
    (forall f, In f (map g_name (g_includes g)) <-> e_reached e b dir f /\ f <> file) /\
    e_holds e b g /\
    (forall ig, In ig (g_includes g) -> exists b, e_read e (g_name ig) = Ret b /\ e_holds e b ig).
Proof. exact env_file_files. Qed.
Print Assumptions C28_file_includes.

(** A root that includes a and b, where a includes b and b includes a. *)
Example C28_example :
  env_ok (xenv cyclic_files keep) /\
  option_map snd (seen (from_string (xenv cyclic_files keep) 200 9 text_root "n" []))
    = Some ["./a"; "d/b"; "d/a"; "./b"]%string /\
  (forall f b, e_read (xenv cyclic_files keep) f = Ret b -> In f (map fst cyclic_files) /\ String.length b < 200).
Proof.
  split; [apply xenv_ok, keep_ok|]. split; [vm_compute; reflexivity|]. exact (cyclic_bounded).
Qed.
