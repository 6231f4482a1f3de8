(** Model of grammar construction: the index (/repo/grammar_index.go), the
    refinement of terminal texts (/repo/grammar_refine.go, the write side of
    grammar_tokens.go), and reading with #include directives
    (/repo/cfgrammar.go:36-86, 339-419). *)
From Coq Require Import Ascii.
From Verif Require Import Base ModelTypes ModelText ModelQuote ModelEarley ModelReader.

(** types.go:36-40 [RbKey] *)
Definition rbkey := (string * N)%type.
(** == on types.go:37-40 [RbKey], as a map key *)
Definition rbkey_eqb (a b : rbkey) : bool := String.eqb (fst a) (fst b) && N.eqb (snd a) (snd b).

(** types.go:30-34 [Index]: two sets, as lists without repetition *)
Record index := mkIndex { ix_frames : list rbkey; ix_rules : list rbkey }.
(** types.go:24-25: map[string]*Index *)
Definition indexes := list (string * index).

(** types.go:15-28 [Grammar]. The trie is represented by its set of keys. *)
Inductive grammar := mkGrammar {
  g_name : string;
  g_rules : grammar_rules;
  g_frames : grammar_rules;
  g_regexps : list (string * string);
  g_refined : bool;
  g_trie : list string;
  g_index : indexes;
  g_rule_index : indexes;
  g_includes : list grammar
}.

(** insertion into a set represented as a list
    (grammar_index.go:22, 24: a map with empty values) *)
Definition set_add {A} (eqb : A -> A -> bool) (l : list A) (a : A) : list A :=
  if existsb (eqb a) l then l else l ++ [a].

(** The two categories "frame" and "rule" of updateIndex. (grammar_index.go:14) *)
Inductive cate := CFrame | CRule.

(** grammar_index.go:10-27 [updateIndex]; the index is never nil and the
    category always valid at the two call sites *)
Definition update_index (ix : indexes) (k : string) (c : cate) (v : rbkey) : indexes :=
  let i := match lookup ix k with Some i => i | None => mkIndex [] [] end in
  put ix k
    (match c with
     | CFrame => mkIndex (set_add rbkey_eqb (ix_frames i) v) (ix_rules i)
     | CRule => mkIndex (ix_frames i) (set_add rbkey_eqb (ix_rules i) v)
     end).

Section Index.
  (** dict.Cedar's SafeUpdate returns nil for this key: external *)
  Variable trie_accepts : string -> bool.

  (** trie, word index, rule index *)
  (** of a grammar while it is indexed (types.go:23-25) *)
  Definition index_state := (list string * indexes * indexes)%type.

  (** grammar_index.go:33-52: one term of body [v] *)
  Definition index_term (c : cate) (v : rbkey) (t : term) (s : index_state) : res index_state :=
    let '(trie, ix, rix) := s in
    let value := trim_space (t_value t) in
    if String.eqb value "" then Ret s
    else
      match t_type t with
      | TTerminal =>
          if trie_accepts value
          then Ret (set_add String.eqb trie value, update_index ix value c v, rix)
          else Err
      | TNonterminal => Ret (trie, ix, update_index rix value c v)
      | _ => Ret s
      end.
  (** grammar_index.go:33-52: the loop over the terms *)
  Fixpoint index_terms (c : cate) (v : rbkey) (ts : list term) (s : index_state) : res index_state :=
    match ts with
    | [] => Ret s
    | t :: ts' => s' <- index_term c v t s ;; index_terms c v ts' s'
    end.
  (** grammar_index.go:32-53: the loop over the bodies *)
  Fixpoint index_bodies (c : cate) (name : string) (l : list (N * rulebody)) (s : index_state)
    : res index_state :=
    match l with
    | [] => Ret s
    | (id, b) :: l' => s' <- index_terms c (name, id) (rb_terms b) s ;; index_bodies c name l' s'
    end.
  (** grammar_index.go:29-56 [indexRules]; the result does not depend on the
      iteration order of the maps, the lists' order is used *)
  Fixpoint index_rules (c : cate) (rules : grammar_rules) (s : index_state) : res index_state :=
    match rules with
    | [] => Ret s
    | (_, r) :: rules' => s' <- index_bodies c (r_name r) (r_body r) s ;; index_rules c rules' s'
    end.
  (** grammar_index.go:66-76: the grammar and its includes *)
  Fixpoint index_grammars (gs : list (grammar_rules * grammar_rules)) (s : index_state)
    : res index_state :=
    match gs with
    | [] => Ret s
    | (frames, rules) :: gs' =>
        s1 <- index_rules CFrame frames s ;; s2 <- index_rules CRule rules s1 ;; index_grammars gs' s2
    end.
End Index.

Section Refine.
  (** NLP().Annotate on a terminal text: external (github.com/liuzl/ling) *)
  Variable tokenize : string -> res (list token).
  (** strings.Join(strings.Fields(unidecode.Unidecode(text)), "_"): external *)
  Variable ascii_name : string -> string.
  (** hashstructure.Hash of a rule body: external *)
  Variable hash : rulebody -> N.
  (** the keys of g.Rules before refinement *)
  Variable old : string -> bool.
  (** step budget of the loop that looks for a free name *)
  Variable fuel : nat.

  (** The variables of refine: terminals, names, terminalRules, and the global
      gTokens (grammar_tokens.go:26). *)
  Record rstate := mkR {
    rf_terminals : list (string * string);
    rf_names : list string;
    rf_rules : list rule;
    rf_tokens : list (string * token)
  }.

  (** token.Type == ling.Space (grammar_refine.go:38) *)
  Definition ling_space (k : token) : bool := match tok_type k with KSpace => true | _ => false end.
  (** token.Type == ling.Punct (grammar_refine.go:41) *)
  Definition ling_punct (k : token) : bool := match tok_type k with KPunct => true | _ => false end.

  (** grammar_refine.go:37-51: the non-space tokens of a terminal text make up
      the name, the terms of the new body and new entries of gTokens *)
  Definition new_name (toks : list token) (tname : string) : string :=
    fold_left (fun n k => if ling_punct k then n else (n ++ "_" ++ ascii_name (tok_text k))%string)
              (filter (fun k => negb (ling_space k)) toks) tname.
  (** grammar_refine.go:36, 46-47 *)
  Definition new_body (m : meta) (toks : list token) : rulebody :=
    mkRb (map (fun k => mkTerm (tok_text k) TTerminal m)
              (filter (fun k => negb (ling_space k)) toks)) None.
  (** grammar_refine.go:48-50 *)
  Definition new_tokens (toks : list token) (gt : list (string * token)) : list (string * token) :=
    fold_left (fun g k => match lookup g (tok_text k) with
                          | None => put g (tok_text k) k
                          | Some _ => g
                          end)
              (filter (fun k => negb (ling_space k)) toks) gt.

  (** grammar_refine.go:52-57: tname, tname_0, tname_1, ... until free *)
  Fixpoint fresh (n : nat) (tname name : string) (i : nat) (names : list string) : res string :=
    match n with
    | O => Fuel
    | S n' =>
        if negb (old name) && negb (existsb (String.eqb name) names) then Ret name
        else fresh n' tname (tname ++ "_" ++ dec_N (N.of_nat i))%string (S i) names
    end.

  (** grammar_refine.go:23-69: one term; the term is changed in place *)
  Definition refine_term (prefix : string) (t : term) (s : rstate) : res (term * rstate) :=
    match t_type t with
    | TTerminal =>
        match lookup (rf_terminals s) (t_value t) with
        | Some x => Ret (mkTerm x TNonterminal (t_meta t), s)
        | None =>
            toks <- tokenize (t_value t) ;;
            let tname := new_name toks (prefix ++ "_t")%string in
            let rb := new_body (t_meta t) toks in
            let gt := new_tokens toks (rf_tokens s) in
            name <- fresh fuel tname tname 0 (rf_names s) ;;
            Ret (mkTerm name TNonterminal (t_meta t),
                 mkR (put (rf_terminals s) (t_value t) name) (rf_names s ++ [name])
                     (rf_rules s ++ [mkRule name [(hash rb, rb)]]) gt)
        end
    | _ => Ret (t, s)
    end.
  (** grammar_refine.go:23-69: the loop over the terms *)
  Fixpoint refine_terms (prefix : string) (ts : list term) (s : rstate) : res (list term * rstate) :=
    match ts with
    | [] => Ret ([], s)
    | t :: ts' =>
        ' (t1, s1) <- refine_term prefix t s ;;
        ' (ts1, s2) <- refine_terms prefix ts' s1 ;; Ret (t1 :: ts1, s2)
    end.
  (** grammar_refine.go:22-70: the loop over the bodies *)
  Fixpoint refine_bodies (prefix : string) (l : list (N * rulebody)) (s : rstate)
    : res (list (N * rulebody) * rstate) :=
    match l with
    | [] => Ret ([], s)
    | (h, b) :: l' =>
        ' (ts, s1) <- refine_terms prefix (rb_terms b) s ;;
        ' (l1, s2) <- refine_bodies prefix l' s1 ;; Ret ((h, mkRb ts (rb_f b)) :: l1, s2)
    end.
  (** grammar_refine.go:21-71: the loop over the rules *)
  Fixpoint refine_rules (prefix : string) (l : grammar_rules) (s : rstate)
    : res (grammar_rules * rstate) :=
    match l with
    | [] => Ret ([], s)
    | (x, r) :: l' =>
        ' (b, s1) <- refine_bodies prefix (r_body r) s ;;
        ' (l1, s2) <- refine_rules prefix l' s1 ;; Ret ((x, mkRule (r_name r) b) :: l1, s2)
    end.
End Refine.

(** grammar_refine.go:12-77 [refine] on the rules, visited in the order of the
    list: the new rules and gTokens. *)
Definition refine (tokenize : string -> res (list token)) (ascii_name : string -> string)
           (hash : rulebody -> N) (fuel : nat) (prefix : string) (rules : grammar_rules)
           (gt : list (string * token)) : res (grammar_rules * list (string * token)) :=
  ' (rules', s) <- refine_rules tokenize ascii_name hash
                     (fun x => match lookup rules x with Some _ => true | None => false end)
                     fuel prefix rules (mkR [] [] [] gt) ;;
  Ret (fold_left (fun m r => put m (r_name r) r) (rf_rules s) rules', rf_tokens s).

(** The counts per file (cfgrammar.go:46, 66: the map files) and gTokens. *)
Record world := mkW { w_files : list (string * nat); w_tokens : list (string * token) }.
(** files[k], 0 when the key is missing (cfgrammar.go:50, 70) *)
Definition count (m : list (string * nat)) (k : string) : nat :=
  match lookup m k with Some n => n | None => 0 end.
(** files[k]++ (cfgrammar.go:81, 369) *)
Definition bump (w : world) (k : string) : world :=
  mkW (put (w_files w) k (S (count (w_files w) k))) (w_tokens w).

Section Construct.
  Variables letter_hi digit_hi : rune -> bool.
  Variable scan_float : string -> res bigf.
  Variable regexp_ok : string -> bool.
  Variable md5 : string -> string.
  Variable hash : rulebody -> N.
  Variable trie_accepts : string -> bool.
  Variable tokenize : string -> res (list token).
  Variable ascii_name : string -> string.
  (** ioutil.ReadFile; the files do not change while a grammar is read *)
  Variable read_file : string -> res string.
  (** filepath.Abs(filepath.Dir(file)) *)
  Variable abs_dir : string -> res string.
  (** filepath.Join *)
  Variable join_path : string -> string -> string.
  (** the order in which refine visits the rules of a grammar and their bodies *)
  Variable ord : grammar_rules -> grammar_rules.
  Variable fuel : nat.

  (** cfgrammar.go:412-418: buildIndex and refine("g") at the end of [grammar] *)
  Definition finish (name : string) (rules frames : grammar_rules) (regexps : list (string * string))
             (includes : list grammar) (gt : list (string * token))
    : res (grammar * list (string * token)) :=
    ' (trie, ix, rix) <- index_grammars trie_accepts
         ((frames, rules) :: map (fun g => (g_frames g, g_rules g)) includes) ([], [], []) ;;
    ' (rules', gt') <- refine tokenize ascii_name hash fuel "g" (ord rules) gt ;;
    Ret (mkGrammar name rules' frames regexps true trie ix rix includes, gt').

  (** cfgrammar.go:49-62 [grammarFromFile] and 349-376, one #include directive of
      a file in directory [dir]; [read] is [grammarFromString]. [None] is a nil grammar. *)
  Definition include_file (read : string -> string -> string -> world -> res (option grammar * world))
             (dir : string) (w : world) (path : string)
    : res (option (list grammar * list (string * string)) * world) :=
    let ifile := join_path dir path in
    let w := bump w ifile in
    if Nat.leb 2 (count (w_files w) ifile) then Ret (None, w)
    else
      b <- read_file ifile ;; idir <- abs_dir ifile ;;
      ' (og, w) <- read b ifile idir w ;;
      match og with
      | None => Ret (None, w)
      | Some ig => Ret (Some (ig :: g_includes ig, g_regexps ig), w)
      end.

  (** cfgrammar.go:69-86 [grammarFromString] with [grammar] (339-419) inlined.
      [depth] is the step budget of the recursion over included files. *)
  Fixpoint grammar_from_string (depth : nat) (d name dir : string) (w : world)
    : res (option grammar * world) :=
    match depth with
    | O => Fuel
    | S depth' =>
        if Nat.leb 2 (count (w_files w) name) then Ret (None, w)
        else
          ' ((includes, w), s) <-
             includes_loop d letter_hi digit_hi fuel (include_file (grammar_from_string depth') dir)
                           fuel w [] (mkRd 0 0 []) ;;
          ' ((rules, frames), regexps) <-
             rules_part d letter_hi digit_hi scan_float regexp_ok md5 hash fuel s ;;
          ' (g, gt) <- finish name rules frames regexps includes (w_tokens w) ;;
          Ret (Some g, bump (mkW (w_files w) gt) name)
    end.

  (** cfgrammar.go:65-67 [GrammarFromString]; [gt] is the state of gTokens *)
  Definition GrammarFromString (depth : nat) (d name : string) (gt : list (string * token))
    : res (option grammar * world) :=
    grammar_from_string depth d name "." (mkW [] gt).
  (** cfgrammar.go:37-47 [GrammarFromFile] *)
  Definition GrammarFromFile (depth : nat) (file : string) (gt : list (string * token))
    : res (option grammar * world) :=
    b <- read_file file ;; dir <- abs_dir file ;;
    grammar_from_string depth b file dir (mkW [(file, 1)] gt).
End Construct.

(** api.go:163-166: the rules of a grammar and of its includes, which a parse uses *)
Definition all_rules (g : grammar) : list grammar_rules := g_rules g :: map g_rules (g_includes g).
