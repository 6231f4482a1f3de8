(** C44: what the printed forms of trees and charts show. *)
From Coq Require Import Ascii.
From Verif Require Import Base ModelTypes ModelText ModelQuote ModelEarley ModelTrees ModelApi ModelReader ModelString ModelPrint
     SpecTypes SpecGrammar SpecTree SpecApi SpecSem SpecNotation SpecString SpecPrint SpecPrintNotation ProofPrint ProofPrintParse ProofPrintNotation Examples ProofWitness ExamplesTree ExamplesPrint.

(** Print writes one line per node, parents first, each indented by its depth. *)
Theorem C44_lines : forall is_print_hi float_string t,
  print_node is_print_hi float_string t
  = String.concat "" (map (fun e => rep (fst e) "  " ++ state_string is_print_hi float_string (snd e) ++ newline)%string (walk 0 t)).
Proof. exact print_is_walk. Qed.
Print Assumptions C44_lines.

(** Trees of any two parses print alike exactly when they show the same nodes. *)
Theorem C44_print_faithful : forall is_print_hi float_string
  tmatch ords gs text fuel n mf toks starts p tmatch' ords' gs' text' fuel' n' mf' toks' starts' p',
  is_order (ords n) -> earley_parse_n tmatch ords gs text fuel n mf toks starts = Ret p ->
  well_formed gs starts -> plain_grammar is_print_hi float_string (of_byte 10) gs starts ->
  is_order (ords' n') -> earley_parse_n tmatch' ords' gs' text' fuel' n' mf' toks' starts' = Ret p' ->
  well_formed gs' starts' -> plain_grammar is_print_hi float_string (of_byte 10) gs' starts' ->
  forall t u, tree_of_parse p t -> tree_of_parse p' u ->
  (print_node is_print_hi float_string t = print_node is_print_hi float_string u
   <-> tree_alike is_print_hi float_string t u).
Proof. exact trees_printed. Qed.
Print Assumptions C44_print_faithful.

(** The same for Node.String, when no function text has a closing brace. *)
Theorem C44_string_faithful : forall is_print_hi float_string
  tmatch ords gs text fuel n mf toks starts p tmatch' ords' gs' text' fuel' n' mf' toks' starts' p',
  is_order (ords n) -> earley_parse_n tmatch ords gs text fuel n mf toks starts = Ret p ->
  well_formed gs starts -> plain_grammar is_print_hi float_string "}" gs starts ->
  is_order (ords' n') -> earley_parse_n tmatch' ords' gs' text' fuel' n' mf' toks' starts' = Ret p' ->
  well_formed gs' starts' -> plain_grammar is_print_hi float_string "}" gs' starts' ->
  forall t u, tree_of_parse p t -> tree_of_parse p' u ->
  (node_string is_print_hi float_string t = node_string is_print_hi float_string u
   <-> tree_alike is_print_hi float_string t u).
Proof. exact trees_string. Qed.
Print Assumptions C44_string_faithful.

(** Printing the chart of a parse never panics. *)
Theorem C44_chart_prints : forall is_print_hi float_string tmatch ords gs text fuel n mf toks starts p,
  is_order (ords n) -> earley_parse_n tmatch ords gs text fuel n mf toks starts = Ret p ->
  exists out, parse_string is_print_hi float_string p = Ret out.
Proof. exact chart_string. Qed.
Print Assumptions C44_chart_prints.

(** Charts over the same tokens print alike exactly when they show the same states in the same order. *)
Theorem C44_chart_faithful : forall is_print_hi float_string
  tmatch ords gs text fuel n mf toks starts p tmatch' ords' gs' text' fuel' n' mf' starts' p',
  is_order (ords n) -> earley_parse_n tmatch ords gs text fuel n mf toks starts = Ret p ->
  well_formed gs starts -> plain_grammar is_print_hi float_string (of_byte 10) gs starts ->
  is_order (ords' n') -> earley_parse_n tmatch' ords' gs' text' fuel' n' mf' toks starts' = Ret p' ->
  well_formed gs' starts' -> plain_grammar is_print_hi float_string (of_byte 10) gs' starts' ->
  (parse_string is_print_hi float_string p = parse_string is_print_hi float_string p'
   <-> Forall2 (fun c d => Forall2 (alike is_print_hi float_string) (c_states c) (c_states d)) (p_columns p) (p_columns p')).
Proof. exact charts_printed. Qed.
Print Assumptions C44_chart_faithful.

(** TreePrint does not show the tree: whatever treeprint does with a root and its
    children, two different trees of one parse give the same output. *)
Theorem C44_treeprint_refuted : forall treeprint is_print_hi float_string,
  exists tmatch ords gs text fuel n mf toks starts p t u,
  is_order (ords n) /\ earley_parse_n tmatch ords gs text fuel n mf toks starts = Ret p
  /\ well_formed gs starts /\ plain_grammar is_print_hi float_string (of_byte 10) gs starts
  /\ tree_of_parse p t /\ tree_of_parse p u
  /\ ~ tree_alike is_print_hi float_string t u
  /\ print_node is_print_hi float_string t <> print_node is_print_hi float_string u
  /\ tree_print is_print_hi float_string treeprint t = tree_print is_print_hi float_string treeprint u.
Proof. exact tree_print_hides. Qed.
Print Assumptions C44_treeprint_refuted.

(** But the root and its children are shown, if treeprint keeps its arguments apart. *)
Theorem C44_treeprint_shows : forall treeprint : string -> list string -> string, (forall a l b m, treeprint a l = treeprint b m -> a = b /\ l = m) ->
  forall is_print_hi float_string
  tmatch ords gs text fuel n mf toks starts p tmatch' ords' gs' text' fuel' n' mf' toks' starts' p',
  is_order (ords n) -> earley_parse_n tmatch ords gs text fuel n mf toks starts = Ret p ->
  well_formed gs starts -> plain_grammar is_print_hi float_string (of_byte 10) gs starts ->
  is_order (ords' n') -> earley_parse_n tmatch' ords' gs' text' fuel' n' mf' toks' starts' = Ret p' ->
  well_formed gs' starts' -> plain_grammar is_print_hi float_string (of_byte 10) gs' starts' ->
  forall t u, tree_of_parse p t -> tree_of_parse p' u ->
  (tree_print is_print_hi float_string treeprint t = tree_print is_print_hi float_string treeprint u
   <-> alike is_print_hi float_string (n_value t) (n_value u)
       /\ Forall2 (fun c d => alike is_print_hi float_string (n_value c) (n_value d)) (n_children t) (n_children u)).
Proof. exact tree_print_shows. Qed.
Print Assumptions C44_treeprint_shows.

(** A printed rule state has the name, the terms and the function in the notation of
    grammar files, a dot where the state is, and the range. Flags and ranges of terms are
    not shown. *)
Theorem C44_notation : forall letter_hi digit_hi scan_float is_print_hi float_string regexp_ok md5 s b,
  let letter := is_letter letter_hi in let digit := is_digit digit_hi in let printable := is_print is_print_hi in
  t_type (s_term s) = TNonterminal -> s_rb s = Some b -> s_dot s <= length (rb_terms b) ->
  Forall (writable_term letter digit printable) (rb_terms b) ->
  plain_fmr letter digit scan_float printable float_string (shown_function (rb_f b)) ->
  exists ss w, Forall2 (writes letter digit regexp_ok md5) (rb_terms b) ss /\ w_fmr letter digit scan_float (shown_function (rb_f b)) w /\ Forall good w /\
    state_string is_print_hi float_string s
    = ("<" ++ t_value (s_term s) ++ "> -> " ++ dotted (s_dot s) ss
       ++ " [" ++ dec_N (N.of_nat (s_start s)) ++ "-" ++ dec_N (N.of_nat (s_end s)) ++ "] {" ++ encode w ++ "}")%string.
Proof. exact rule_shown. Qed.
Print Assumptions C44_notation.

(** A printed list state shows the items so far and their numbers. *)
Theorem C44_list_shown : forall is_print_hi float_string s, t_type (s_term s) = TList ->
  state_string is_print_hi float_string s
  = ("(list<" ++ t_value (s_term s) ++ ">) -> " ++ String.concat "" (repeat ("<" ++ t_value (s_term s) ++ "> ") (s_dot s)) ++ "• * "
     ++ " [" ++ dec_N (N.of_nat (s_start s)) ++ "-" ++ dec_N (N.of_nat (s_end s)) ++ "] {fmr.list(" ++ numbered (s_dot s) ++ ")}")%string.
Proof. exact list_shown. Qed.
Print Assumptions C44_list_shown.

Example C44_notation_example :
  let b := mkRb [mkTerm "a" TNonterminal MNil; mkTerm "b""c" TTerminal (MStr "l"); mkTerm "any" TAny (MMap (Some 1%Z) None); mkTerm "x" TList MNil]
             (Some (FMR "f" [Arg "index" (VIdx 2); Arg "int" (VInt (-5))])) in
  Forall (writable_term (is_letter (fun _ => false)) (is_digit (fun _ => false)) (is_print (fun _ => false))) (rb_terms b) /\
  plain_fmr (is_letter (fun _ => false)) (is_digit (fun _ => false)) (fun _ => Err) (is_print (fun _ => false)) (fun _ => ""%string) (shown_function (rb_f b)) /\
  state_string (fun _ => false) (fun _ => ""%string) (mkSt (mkTerm "s" TNonterminal MNil) (Some b) 0 3 2)
    = "<s> -> <a> ""b\""c"" • (any) (list<x>)  [0-3] {f($2,-5)}"%string /\
  state_string (fun _ => false) (fun _ => ""%string) (mkSt (mkTerm "x" TList MNil) None 1 4 3)
    = "(list<x>) -> <x> <x> <x> • *  [1-4] {fmr.list($1,$2,$3)}"%string /\
  (forall a l b m, all_shown a l = all_shown b m -> a = b /\ l = m).
Proof.
  cbv zeta. split.
  { apply Forall_cons; [exists [97]%Z|apply Forall_cons; [exists [98; 34; 99]%Z|apply Forall_cons; [reflexivity|apply Forall_cons; [exists [120]%Z|apply Forall_nil]]]].
    - split; [apply Forall_cons; [split; [reflexivity|discriminate]|apply Forall_nil]|]. split; [split; [left; reflexivity|apply Forall_nil]|reflexivity].
    - split; [|reflexivity]. split; [|right; right; split; [reflexivity|discriminate]].
      do 3 (apply Forall_cons; [split; [split; [reflexivity|discriminate]|left; reflexivity]|]). apply Forall_nil.
    - split; [apply Forall_cons; [split; [reflexivity|discriminate]|apply Forall_nil]|]. split; [split; [left; reflexivity|apply Forall_nil]|reflexivity]. }
  split. { apply (pf_intro _ _ _ _ _ [102]%Z).
    - apply Forall_cons; [split; [reflexivity|discriminate]|apply Forall_nil].
    - split; [split; [left; reflexivity|apply Forall_nil]|]. intros (a & c & E). destruct a as [|? [|? ?]]; discriminate.
    - apply pas_more; [constructor; lia|]. apply pas_last. constructor. }
  split; [vm_compute; reflexivity|]. split; [vm_compute; reflexivity|]. exact all_shown_inj.
Qed.

Example C44_example : forall is_print_hi float_string,
  is_order id_ord /\ xparse id_ord g_both true ["a"; "b"] ["s"] = Ret both_parse
  /\ well_formed g_both ["s"] /\ plain_grammar is_print_hi float_string (of_byte 10) g_both ["s"]
  /\ plain_grammar is_print_hi float_string "}" g_both ["s"]
  /\ tree_of_parse both_parse both_1 /\ tree_of_parse both_parse both_2
  /\ ~ tree_alike is_print_hi float_string both_1 both_2
  /\ print_node is_print_hi float_string both_1 =
"<ɣ> -> <s> • [0-2] {nf.I($1)}
  <s> -> <x> <b> • [0-2] {nf.I($0)}
    <x> -> <a> • [0-1] {nf.I($0)}
      <a> -> ""a"" • [0-1] {nf.I($0)}
        ""a"" [0-1]
    <b> -> ""b"" • [1-2] {nf.I($0)}
      ""b"" [1-2]
"%string.
Proof.
  intros pr fs. split; [exact id_ord_ok|]. split; [exact both_parse_ok|]. split; [apply well_formed_b_ok; reflexivity|].
  split; [apply plain_b_ok; [apply lacks_b_ok; reflexivity|reflexivity]|].
  split; [apply plain_b_ok; [apply lacks_b_ok; reflexivity|reflexivity]|].
  split; [apply both_nodes_ok|]. split; [apply both_nodes_ok|]. split; [apply both_differ|]. vm_compute. reflexivity.
Qed.

(** states with names that are not plain can print alike *)
Example C44_plain_needed : forall is_print_hi float_string,
  state_string is_print_hi float_string odd_1 = state_string is_print_hi float_string odd_2
  /\ ~ alike is_print_hi float_string odd_1 odd_2.
Proof.
  intros pr fs. split; [vm_compute; reflexivity|]. intros (_ & _ & _ & H). destruct H as (_ & H & _). discriminate H.
Qed.

(** the start of a printed chart *)
Example C44_chart_example : exists rest,
  parse_string (fun _ => false) (fun _ => ""%string) both_parse = Ret ("[0] ''
=======================================
<ɣ> -> • <s>  [0-0] {nf.I($1)}
<s> -> • <x> <b>  [0-0] {nf.I($0)}
" ++ rest)%string.
Proof. eexists. vm_compute. reflexivity. Qed.
