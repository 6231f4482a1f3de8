(** What the index of a grammar should contain. *)
From Verif Require Import Base ModelTypes ModelText ModelEarley ModelReader ModelGrammar.

(** A body mentions [k]: one of its terms of type [ty] is [k] up to surrounding white space. *)
Definition mentions (ty : ttype) (k : string) (b : rulebody) : Prop :=
  k <> "" /\ exists t, In t (rb_terms b) /\ t_type t = ty /\ trim_space (t_value t) = k.

(** Some map among [ms] has, under the rule named [fst v], an alternative with key
    [snd v] that mentions [k]. *)
Definition mentioned (ms : list grammar_rules) (ty : ttype) (k : string) (v : rbkey) : Prop :=
  exists m x r b, In m ms /\ In (x, r) m /\ r_name r = fst v /\ In (snd v, b) (r_body r) /\ mentions ty k b.

(** Index [ix] lists [v] for [k], among the frames or among the rules. *)
Definition lists (ix : indexes) (c : cate) (k : string) (v : rbkey) : Prop :=
  exists i, lookup ix k = Some i /\ In v (match c with CFrame => ix_frames i | CRule => ix_rules i end).

(** An index is a map of pairs of sets: nothing is listed twice. *)
Definition index_wf (ix : indexes) : Prop :=
  NoDup (map fst ix) /\
  forall k i, lookup ix k = Some i -> NoDup (ix_frames i) /\ NoDup (ix_rules i).

(** The index of [g], when its own rules were [rules] before refinement. *)
Definition index_exact (g : grammar) (rules : grammar_rules) : Prop :=
  let frames_of := g_frames g :: map g_frames (g_includes g) in
  let rules_of := rules :: map g_rules (g_includes g) in
  (forall k v,
     (lists (g_index g) CFrame k v <-> mentioned frames_of TTerminal k v) /\
     (lists (g_index g) CRule k v <-> mentioned rules_of TTerminal k v) /\
     (lists (g_rule_index g) CFrame k v <-> mentioned frames_of TNonterminal k v) /\
     (lists (g_rule_index g) CRule k v <-> mentioned rules_of TNonterminal k v)) /\
  (forall k, In k (g_trie g) <-> lookup (g_index g) k <> None) /\
  (forall k, lookup (g_index g) k <> None <-> exists c v, lists (g_index g) c k v) /\
  index_wf (g_index g) /\ index_wf (g_rule_index g).
