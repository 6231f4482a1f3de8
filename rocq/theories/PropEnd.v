(** C39: from the text of a grammar to the result of a call. *)
From Coq Require Import Permutation Sorted.
From Verif Require Import Base ModelTypes ModelText ModelEarley ModelTrees ModelApi ModelReader ModelGrammar ModelLocal
  ModelMatch SpecTypes SpecGrammar SpecTree SpecRefine SpecConstruct SpecApi SpecLocal SpecEnd
  ProofConstruct ProofConstructRefute ProofRefute ProofEnd ProofMeaningEasy Examples ExamplesSem ExamplesLocal ExamplesGrammar ExamplesEnd.

(** Grammars the reader returns satisfy what the other properties ask of a grammar. *)
Theorem C39_accepted_grammars :
  forall e, env_ok e -> forall fuel depth text name gt g w',
  from_string e fuel depth text name gt = Ret (Some g, w') ->
  (exists L, e_parts e text g L) /\
  named_rules (all_rules g) /\ typed_args (all_rules g) /\ separated (all_rules g) /\ any_named (all_rules g) /\
  forall L, e_parts e text g L ->
    (uniform_ranges (map rd_before L) -> uniform_ranges (all_rules g)) /\
    (texts_nonempty (e_tokenize e) (map rd_before L) -> no_empty (all_rules g)) /\
    (forall starts, unreserved (map rd_before L) -> ~ In GammaRule starts -> no_reserved (all_rules g) starts).
Proof. exact accepted. Qed.
Print Assumptions C39_accepted_grammars.

(** EarleyParseAll on a grammar text: it returns, with one parse for every position at
    which a start rule of the text matches, each reporting exactly the matches there. *)
Theorem C39_parse_all :
  forall e text0 g L, e_parts e text0 g L -> forall starts, usable (e_tokenize e) L starts ->
  forall tmatch ords, orders ords ->
  forall find_all span_text ord, (forall i l, Permutation l (ord i l)) ->
  forall annotate ctx text d, trim_space text <> "" -> annotate ctx (trim_space text) = Ret d ->
  fit_document (e_hash e) find_all (g_regexps g) d ->
  let means := Means (e_tokenize e) tmatch (map rd_before L) find_all (g_regexps g) d in
  exists ps n, (forall fuel, n <= fuel ->
      EarleyParseAll tmatch ords (all_rules g) (doc_tokens annotate)
        (doc_local (e_hash e) find_all span_text (g_regexps g) ord annotate ctx text) fuel ctx text starts = Ret ps) /\
    exists is, StronglySorted lt is
      /\ Forall2 (fun i p => parsed_tokens p (skipn i (content d))
            /\ forall S k, reports p S k <-> In S starts /\ means S i (i + k)) is ps
      /\ (forall i, In i is <-> i < length (content d) /\ exists S j, In S starts /\ means S i j).
Proof. exact end_all. Qed.
Print Assumptions C39_parse_all.

(** <a>="x y"<b>;<b>="z"; on a text with a span that a tagger calls b: both positions *)
Example C39_example : exists g w T,
  from_string (xenv [] keep) 200 1 text_small "n" [] = Ret (Some g, w) /\
  e_parts (xenv [] keep) text_small g [mkRefined T small_rules (g_rules g)] /\
  usable xtokenize [mkRefined T small_rules (g_rules g)] ["a"%string] /\
  fit_document ExamplesGrammar.xhash xfind (g_regexps g) end_doc /\
  end_annotate "" (trim_space "x y z,x y q") = Ret end_doc /\
  end_seen (from_string (xenv [] keep) 200 1 text_small "n" []) = Some [(8, [("a", 3)]); (4, [("a", 3)])]%string.
Proof.
  destruct small_parts_at as (g & w & T & E & E3 & E4 & HP). exists g, w, T. split; [exact E|]. split; [exact HP|].
  split; [apply small_usable; eapply env_single; [exact HP|exact E3]|]. split; [rewrite E4; exact end_fit|].
  split; [reflexivity|]. vm_compute. reflexivity.
Qed.

(** EarleyParseMaxAll: disjoint longest matches from left to right *)
Theorem C39_parse_max_all :
  forall e text0 g L, e_parts e text0 g L -> forall starts, usable (e_tokenize e) L starts ->
  forall tmatch ords, orders ords ->
  forall find_all span_text ord, (forall i l, Permutation l (ord i l)) ->
  forall annotate ctx text d, trim_space text <> "" -> annotate ctx (trim_space text) = Ret d ->
  fit_document (e_hash e) find_all (g_regexps g) d ->
  let means := Means (e_tokenize e) tmatch (map rd_before L) find_all (g_regexps g) d in
  exists ps n, (forall steps fuel, n <= fuel -> length (content d) < steps ->
      EarleyParseMaxAll tmatch ords (all_rules g) (doc_tokens annotate)
        (doc_local (e_hash e) find_all span_text (g_regexps g) ord annotate ctx text) steps fuel ctx text starts = Ret ps) /\
    exists spans, tiles 0 spans
      /\ Forall2 (fun im p => fst im < length (content d) /\ 0 < snd im /\ parsed_tokens p (skipn (fst im) (content d))
            /\ (exists S, In S starts /\ means S (fst im) (fst im + snd im))
            /\ (forall S j, In S starts -> means S (fst im) j -> j <= fst im + snd im)
            /\ (forall k, (exists S, reports p S k) <-> k = snd im)) spans ps
      /\ (forall x S j, x < length (content d) -> ~ covered spans x -> In S starts -> ~ means S x j).
Proof. exact end_max. Qed.
Print Assumptions C39_parse_max_all.

(** EarleyParseAny: the longest match at the leftmost position *)
Theorem C39_parse_any :
  forall e text0 g L, e_parts e text0 g L -> forall starts, usable (e_tokenize e) L starts ->
  forall tmatch ords, orders ords ->
  forall find_all span_text ord, (forall i l, Permutation l (ord i l)) ->
  forall annotate ctx text d, trim_space text <> "" -> annotate ctx (trim_space text) = Ret d ->
  fit_document (e_hash e) find_all (g_regexps g) d ->
  let means := Means (e_tokenize e) tmatch (map rd_before L) find_all (g_regexps g) d in
  exists p i n, (forall fuel, n <= fuel ->
      EarleyParseAny tmatch ords (all_rules g) (doc_tokens annotate)
        (doc_local (e_hash e) find_all span_text (g_regexps g) ord annotate ctx text) fuel ctx text starts = Ret (Some p)) /\
    i < length (content d) /\ parsed_tokens p (skipn i (content d))
    /\ (forall i' S j, i' < i -> In S starts -> ~ means S i' j)
    /\ (forall k, (exists S, reports p S k) <->
          (exists S, In S starts /\ means S i (i + k)) /\ forall S j, In S starts -> means S i j -> j <= i + k)
    /\ (p_finals p <> [] <-> exists i' S j, i' < length (content d) /\ In S starts /\ means S i' j).
Proof. exact end_any. Qed.
Print Assumptions C39_parse_any.

(** ExtractAll: every tree has one node for every term written in the rules it uses, a
    terminal text being the node of its tokens, and every match has a tree. *)
Theorem C39_extract_all :
  forall e text0 g L, e_parts e text0 g L -> forall starts, usable (e_tokenize e) L starts ->
  forall tmatch ords, orders ords ->
  forall find_all span_text ord, (forall i l, Permutation l (ord i l)) ->
  forall annotate ctx text d, trim_space text <> "" -> annotate ctx (trim_space text) = Ret d ->
  fit_document (e_hash e) find_all (g_regexps g) d ->
  let means := Means (e_tokenize e) tmatch (map rd_before L) find_all (g_regexps g) d in
  exists outs n, (forall fuel, n <= fuel ->
      ExtractAll tmatch ords (all_rules g) (doc_tokens annotate)
        (doc_local (e_hash e) find_all span_text (g_regexps g) ord annotate ctx text) fuel ctx text starts = Ret outs) /\
    (forall p t, In (p, t) outs -> exists i k S kid, i < length (content d) /\ In S starts /\
       parsed_tokens p (skipn i (content d)) /\ erase t = PRule GammaRule (gamma_body S) 0 k [kid] /\
       text_tree (e_tokenize e) tmatch (map rd_before L) find_all (g_regexps g) d (skipn i (content d)) (nonterm S) 0 k kid) /\
    (forall S i j, i < length (content d) -> In S starts -> means S i j ->
       exists p t kid, In (p, t) outs /\ parsed_tokens p (skipn i (content d)) /\
       erase t = PRule GammaRule (gamma_body S) 0 (j - i) [kid]).
Proof. exact end_extract. Qed.
Print Assumptions C39_extract_all.

(** EarleyParse: the longest match at the first token, in at most one final state *)
Theorem C39_parse :
  forall e text0 g L, e_parts e text0 g L -> forall starts, usable (e_tokenize e) L starts ->
  forall tmatch ords, orders ords ->
  forall find_all span_text ord, (forall i l, Permutation l (ord i l)) ->
  forall annotate ctx text d, trim_space text <> "" -> annotate ctx (trim_space text) = Ret d ->
  fit_document (e_hash e) find_all (g_regexps g) d ->
  let means := Means (e_tokenize e) tmatch (map rd_before L) find_all (g_regexps g) d in
  exists p n, (forall fuel, n <= fuel ->
      EarleyParse tmatch ords (all_rules g) (doc_tokens annotate)
        (doc_local (e_hash e) find_all span_text (g_regexps g) ord annotate ctx text) fuel ctx text starts = Ret p) /\
    parsed_tokens p (content d)
    /\ (forall k, (exists S, reports p S k) <->
          (exists S, In S starts /\ means S 0 k) /\ forall S j, In S starts -> means S 0 j -> j <= k)
    /\ (p_finals p <> [] <-> exists S j, In S starts /\ means S 0 j)
    /\ length (p_finals p) <= 1.
Proof. exact end_parse. Qed.
Print Assumptions C39_parse.

(** the same text and document: one final state, three tokens long *)
Example C39_parse_example :
  match from_string (xenv [] keep) 200 1 text_small "n" [] with
  | Ret (Some g, w) =>
      match EarleyParse (terminal_match (lookup (w_tokens w)) (fun s => s)) (fun _ => id_ord) (all_rules g) (doc_tokens end_annotate)
              (end_local (g_regexps g)) 200 "" "x y z,x y q" ["a"%string] with
      | Ret p => Some (length (p_columns p), finals_of p (p_finals p))
      | _ => None
      end
  | _ => None
  end = Some (8, [("a", 3)])%string.
Proof. vm_compute. reflexivity. Qed.
