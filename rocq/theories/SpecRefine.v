(** What the refinement of the terminal texts of a grammar should do. *)
From Coq Require Import Permutation DecimalString.
From Verif Require Import Base ModelTypes ModelEarley SpecGrammar.

(** The same map with its entries, and the bodies of every rule, in another order. *)
Definition reordered (m m' : grammar_rules) : Prop :=
  exists m1, Permutation m m1 /\
    Forall2 (fun a b => fst a = fst b /\ r_name (snd a) = r_name (snd b)
                        /\ Permutation (r_body (snd a)) (r_body (snd b))) m1 m'.
Definition is_rule_order (ord : grammar_rules -> grammar_rules) : Prop := forall m, reordered m (ord m).

(** A map with at most one entry per key, whose rules have at most one body per hash. *)
Definition proper (m : grammar_rules) : Prop :=
  NoDup (map fst m) /\ forall x r, In (x, r) m -> NoDup (map fst (r_body r)).

(** Terminal text [v] occurs with flags [m] in some rule. *)
Definition terminal_occurs (rules : grammar_rules) (v : string) (m : meta) : Prop :=
  exists t, occurs [rules] t /\ t_type t = TTerminal /\ t_value t = v /\ t_meta t = m.

Section RefineSpec.
  Variable tokenize : string -> res (list token).
  Variable hash : rulebody -> N.

  (** the terminals a terminal text with flags [m] stands for: its tokens that are not white space *)
  Definition is_space_token (k : token) : bool := match tok_type k with KSpace => true | _ => false end.
  Definition token_terms (m : meta) (toks : list token) : list term :=
    map (fun k => mkTerm (tok_text k) TTerminal m) (filter (fun k => negb (is_space_token k)) toks).

  (** [T] maps terminal texts to rule names; [t'] is [t] after the replacement *)
  Definition replaced (T : list (string * string)) (t t' : term) : Prop :=
    (t_type t = TTerminal /\ exists x, In (t_value t, x) T /\ t' = mkTerm x TNonterminal (t_meta t))
    \/ (t_type t <> TTerminal /\ t' = t).
  Definition replaced_body (T : list (string * string)) (b b' : rulebody) : Prop :=
    rb_f b' = rb_f b /\ Forall2 (replaced T) (rb_terms b) (rb_terms b').

  (** [rules'] is [rules] with every terminal text replaced by a rule of a new name. *)
  Definition refined_by (T : list (string * string)) (rules rules' : grammar_rules) : Prop :=
    NoDup (map fst T) /\ NoDup (map snd T) /\ proper rules' /\
    (** the new names are not names of rules *)
    (forall x, In x (map snd T) -> lookup rules x = None) /\
    (** the old rules are there with the same alternatives under the same hashes *)
    (forall x r, lookup rules x = Some r -> exists r', lookup rules' x = Some r' /\ r_name r' = r_name r /\
       (forall h b, In (h, b) (r_body r) -> exists b', In (h, b') (r_body r') /\ replaced_body T b b') /\
       (forall h b', In (h, b') (r_body r') -> exists b, In (h, b) (r_body r) /\ replaced_body T b b')) /\
    (** every new rule has one alternative: the tokens of its text *)
    (forall v x, In (v, x) T -> exists toks m, tokenize v = Ret toks /\ terminal_occurs rules v m /\
       let b := mkRb (token_terms m toks) None in lookup rules' x = Some (mkRule x [(hash b, b)])) /\
    (** there are no other rules *)
    (forall x, lookup rules x = None -> ~ In x (map snd T) -> lookup rules' x = None).

  (** The name of a terminal text with tokens [ks] if nothing else has it: g_t and the
      transliterated tokens, white space and punctuation apart. *)
  Definition is_mark (k : token) : bool := match tok_type k with KSpace | KPunct => true | _ => false end.
  Definition usual_name (ascii : string -> string) (ks : list token) : string :=
    String.concat "" ("g_t"%string :: map (fun k => ("_" ++ ascii (tok_text k))%string) (filter (fun k => negb (is_mark k)) ks)).
  (** the name itself, and then with _0, _1, ... *)
  Definition numbered (x : string) (k : nat) : string :=
    match k with O => x | S i => (x ++ "_" ++ NilZero.string_of_uint (N.to_uint (N.of_nat i)))%string end.
  (** Every text has the first of these names that is neither the name of a rule nor of another text. *)
  Definition named_by (ascii : string -> string) (T : list (string * string)) (rules : grammar_rules) : Prop :=
    forall v x, In (v, x) T -> exists ks k, tokenize v = Ret ks /\ x = numbered (usual_name ascii ks) k /\
      forall j, j < k -> lookup rules (numbered (usual_name ascii ks) j) <> None \/ In (numbered (usual_name ascii ks) j) (map snd T).

  (** The language of a grammar whose terminal texts stand for their tokens: in every
      alternative each terminal text is replaced by the terminals of its tokens. *)
  Inductive split_terms : list term -> list term -> Prop :=
  | sp_nil : split_terms [] []
  | sp_text t ts toks ts' : t_type t = TTerminal -> tokenize (t_value t) = Ret toks ->
      split_terms ts ts' -> split_terms (t :: ts) (token_terms (t_meta t) toks ++ ts')
  | sp_other t ts ts' : t_type t <> TTerminal -> split_terms ts ts' -> split_terms (t :: ts) (t :: ts').
  Definition split_alt (gs : list grammar_rules) (x : string) (ts : list term) : Prop :=
    exists ts0, has_alt gs x ts0 /\ split_terms ts0 ts.
  Definition DerivesSplit tmatch gs toks :=
    derives (split_alt gs) (accepts_by tmatch) toks own_range (fun _ _ => True).

  (** Equal terminal texts carry equal flags. *)
  Definition uniform_flags (gs : list grammar_rules) : Prop :=
    forall t t', occurs gs t -> occurs gs t' -> t_type t = TTerminal -> t_type t' = TTerminal ->
      t_value t = t_value t' -> t_meta t = t_meta t'.

  (** No rule refers to an undefined rule whose name starts with [p]. *)
  Definition no_dangling (p : string) (gs : list grammar_rules) : Prop :=
    forall t, occurs gs t -> t_type t = TNonterminal \/ t_type t = TList ->
      String.prefix p (t_value t) = true -> exists g, In g gs /\ lookup g (t_value t) <> None.

  (** A grammar and the grammars it includes, each with its table of names before and after. *)
  Record refined := mkRefined { rd_table : list (string * string); rd_before : grammar_rules; rd_after : grammar_rules }.
  Definition generated (L : list refined) (x : string) : Prop := exists p, In p L /\ In x (map snd (rd_table p)).
  (** No generated name is the name of a rule of another file, and two files
      that use the same generated name use it for the same text. *)
  Definition compatible (L : list refined) : Prop :=
    (forall x p, generated L x -> In p L -> lookup (rd_before p) x = None) /\
    (forall p q x v v', In p L -> In q L -> In (v, x) (rd_table p) -> In (v', x) (rd_table q) -> v = v').
End RefineSpec.
