(** C48: the grammar files of the repository. *)
From Verif Require Import Base ModelTypes ModelText ModelEarley ModelReader ModelGrammar
  SpecNotation SpecRefine SpecConstruct SpecSem SpecEnd ModelShipped SpecShipped ProofLoads ProofShipped ProofShippedMain ProofShippedUsable ExamplesGrammar ExamplesShipped ExamplesHomophones ProofShippedClash.

(** Whatever the environment, every file but any.grammar gives a grammar. *)
Theorem C48_loads : forall e, env_ok e -> tools_work e -> fractions_scan e -> e_regexp_ok e sf_pattern = true ->
  forall l dir, In l shipped -> installed e dir l ->
  forall name text, In (name, text) l -> name <> rejected -> forall gt,
  exists g w' n, forall fuel depth, n <= fuel -> n <= depth ->
    from_file e fuel depth (e_join e dir name) gt = Ret (Some g, w').
Proof. exact shipped_loads. Qed.
Print Assumptions C48_loads.

(** any.grammar is an error. *)
Theorem C48_any_rejected : forall e dir, installed e dir dir_builtin -> forall gt,
  exists n, forall fuel depth, n <= fuel -> n <= depth ->
    from_file e fuel depth (e_join e dir "any.grammar") gt = Err.
Proof. exact shipped_rejected. Qed.
Print Assumptions C48_any_rejected.

(** The files reached from a file are those in the list [below]. *)
Theorem C48_reached : forall e, env_ok e -> fractions_scan e -> e_regexp_ok e sf_pattern = true ->
  forall l dir, In l shipped -> installed e dir l ->
  forall name text, In (name, text) l -> name <> rejected ->
  forall f, e_reached e text dir f <-> In f (map (e_join e dir) (below name)).
Proof. exact shipped_reached. Qed.
Print Assumptions C48_reached.

(** No dangling names, no index out of range. *)
Theorem C48_self_contained : forall e, env_ok e -> fractions_scan e -> e_regexp_ok e sf_pattern = true ->
  forall l name text, In l shipped -> In (name, text) l -> name <> rejected -> self_contained e l name text.
Proof. exact shipped_contained. Qed.
Print Assumptions C48_self_contained.

(** The files meet what parsing asks of grammar texts, for every start rule whose name does
    not look generated; between a file and the files it includes, [compatible] remains. *)
Theorem C48_usable : forall e, env_ok e -> fractions_scan e -> e_regexp_ok e sf_pattern = true -> texts_have_tokens e ->
  String.prefix "g_t" (e_md5 e sf_pattern) = false ->
  forall l dir, In l shipped -> installed e dir l ->
  forall name text, In (name, text) l -> name <> rejected ->
  forall fuel depth gt g w', from_file e fuel depth (e_join e dir name) gt = Ret (Some g, w') ->
  exists L, e_parts e text g L /\ map rd_after L = all_rules g /\
    (below name = [] -> compatible L) /\
    (name <> "sf.grammar"%string -> functions_fit (map rd_before L)) /\
    (compatible L -> forall starts, starts <> [] ->
       (forall S, In S starts -> S <> GammaRule /\ String.prefix "g_t" S = false) -> usable (e_tokenize e) L starts).
Proof. exact shipped_usable. Qed.
Print Assumptions C48_usable.

(** [compatible] fails for time.grammar when the transliteration gives 千 (a thousand), 仟
    and 前 (before) one spelling: 三千 (three thousand) is read as 三前 (before three), and
    三前 as three thousand instead of 3, although no such rule is written. *)
Theorem C48_homophones_refuted :
  (forall ascii, env_ok (henv dir_grammars xtokenize ascii keep) /\ installed (henv dir_grammars xtokenize ascii keep) "d" dir_grammars /\
     never_written (henv dir_grammars xtokenize ascii keep) dir_grammars "nf.sql.where" "千" /\
     never_written (henv dir_grammars xtokenize ascii keep) dir_grammars "nf.math.mul" "前") /\
  formulas (time_loaded (fun s => s)) ["三"; "千"]%string "before" = Some [] /\
  formulas (time_loaded pinyin) ["三"; "千"]%string "before" = Some ["nf.sql.where(""<"", 3)"]%string /\
  formulas (time_loaded (fun s => s)) ["三"; "前"]%string "number" = Some ["3"]%string /\
  formulas (time_loaded pinyin) ["三"; "前"]%string "number" = Some ["nf.math.mul(3, 1000)"]%string.
Proof. exact homophones. Qed.
Print Assumptions C48_homophones_refuted.

(** It fails for math.grammar for some orders of maps: punctuation does not count in
    generated names, so the first sign of math.grammar and the - of number.en.grammar
    share one, and two-three is also read as a product. *)
Theorem C48_signs_refuted :
  (forall ord, is_rule_order ord -> env_ok (henv dir_math sign_tokenize (fun s => s) ord) /\
     installed (henv dir_math sign_tokenize (fun s => s) ord) "d" dir_math /\
     never_written (henv dir_math sign_tokenize (fun s => s) ord) dir_math "nf.math.mul" "-") /\
  is_rule_order keep /\ is_rule_order mul_first /\
  formulas (math_loaded keep) ["two"; "-"; "three"]%string "Exp" = Some ["nf.math.sub(2, 3)"]%string /\
  formulas (math_loaded mul_first) ["two"; "-"; "three"]%string "Exp" = Some ["nf.math.mul(2, 3)"; "nf.math.sub(2, 3)"]%string.
Proof. exact signs_clash. Qed.
Print Assumptions C48_signs_refuted.

Example C48_example :
  (forall l, In l shipped -> env_ok (senv l) /\ tools_work (senv l) /\ fractions_scan (senv l) /\
     e_regexp_ok (senv l) sf_pattern = true /\ texts_have_tokens (senv l) /\
     String.prefix "g_t" (e_md5 (senv l) sf_pattern) = false /\ installed (senv l) "d" l) /\
  loaded (from_file (senv dir_grammars) 4000 9 "d/sql.grammar" [])
    = Some (1, 1, ["d/order.grammar"; "d/limit.grammar"; "d/math.zh.grammar"; "d/number.zh.grammar"])%string /\
  loaded (from_file (senv dir_root) 4000 9 "d/sf.grammar" []) = Some (16, 2, []) /\
  from_file (senv dir_builtin) 4000 9 "d/any.grammar" [] = Err.
Proof.
  split; [|split; [vm_compute; reflexivity|split; vm_compute; reflexivity]].
  intros l H. split; [apply senv_ok|]. split; [apply senv_tools|]. split; [apply senv_fractions|]. split; [reflexivity|].
  split; [apply senv_texts|]. split; [reflexivity|]. apply senv_installed. exact H.
Qed.
